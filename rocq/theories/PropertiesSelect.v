(** * Choice of the surrogate model over a run (C135, C136). *)
From Verif Require Import ModelSelect SpecSelect SelectProofs.
From Verif Require Import ModelRBF SpecRBF RBFGlue.
From Coq Require Import Lia Lra Reals.
Import ListNotations.
Open Scope nat_scope.

(** Python's [==] on models. *)
Definition decides {M} (eqb : M -> M -> bool) : Prop := forall x y, eqb x y = true <-> x = y.

(** ** C135 *)
(** Cross validation is performed in exactly the first [max_cross_validations] eligible
    iterations of all calls together: never more than that, and never without [rbf = 'auto']. *)
Theorem C135_when : forall (M : Type) (eqb : M -> M -> bool) (c : sel_cfg M) os t,
  (validates_at eqb c os t = true <->
     c_auto c = true /\ c_n c + 2 < o_k (os t) /\ o_step (os t) <= c_first c /\
     length (filter (fun i => eligible c (os i)) (seq 0 t)) < c_maxcv c) /\
  length (filter (validates_at eqb c os) (seq 0 t)) <= c_maxcv c.
Proof.
  intros M eqb c os t. split.
  - rewrite (validates_turn eqb c os t). unfold turn, eligible, eligible_before.
    rewrite !Bool.andb_true_iff, !Nat.ltb_lt, Nat.leb_le. tauto.
  - assert (E : length (filter (validates_at eqb c os) (seq 0 t)) = length (local_list (serial_at eqb c os t))).
    { change (local_list ?s) with (side_list true s). rewrite (side_at eqb c os true t), map_length. unfold turns.
      f_equal. apply filter_ext. intros i. apply validates_turn. }
    rewrite E, (proj1 (lens eqb c os t)). lia.
Qed.
Print Assumptions C135_when.

(** A model chosen by the user is used in every iteration. *)
Theorem C135_user_model : forall (M : Type) (eqb : M -> M -> bool) (c : sel_cfg M) os t,
  c_auto c = false -> used_at eqb c os t = c_init c.
Proof.
  intros M eqb c os t A. rewrite used_bests. apply bests_init. intros i _. unfold turn, eligible. rewrite A. reflexivity.
Qed.
Print Assumptions C135_user_model.

(** Before the first cross validation: the initial model.  Until the limit is reached: the choice
    of the latest cross validation, the local one from the step before the local search on. *)
Theorem C135_latest : forall (M : Type) (eqb : M -> M -> bool) (c : sel_cfg M) os t,
  ((forall i, i <= t -> validates_at eqb c os i = false) -> used_at eqb c os t = c_init c) /\
  forall i, i <= t -> validates_at eqb c os i = true ->
    (forall l, i < l <= t -> validates_at eqb c os l = false) ->
    length (filter (validates_at eqb c os) (seq 0 (S i))) < c_maxcv c ->
    used_at eqb c os t =
      let prev := match i with O => c_init c | S j => used_at eqb c os j end in
      if c_localstep c - 1 <=? o_step (os t)
      then fst (o_local (os i) prev)
      else fst (o_global (os i) (snd (o_local (os i) prev))).
Proof.
  intros M eqb c os t. split.
  - intros H. rewrite used_bests. apply bests_init. intros i Hi. rewrite <- validates_turn with (eqb := eqb). apply H, Hi.
  - intros i Hi V N L. rewrite used_bests. rewrite (bests_stay eqb c os i t _ Hi).
    2:{ intros l Hl. rewrite <- validates_turn with (eqb := eqb). apply N, Hl. }
    rewrite validates_turn in V.
    rewrite (bests_turn eqb c os i _ V).
    + unfold found_for, local_side, found_local, found_global, previous. destruct (_ <=? _); reflexivity.
    + assert (E : length (filter (validates_at eqb c os) (seq 0 (S i))) = length (turns c os (S i))).
      { f_equal. apply filter_ext. intros x. apply validates_turn. }
      rewrite E, (turns_turn c os i V), app_length in L. cbn [length] in L.
      assert (F : length (turns c os i) = length (local_list (serial_at eqb c os i))).
      { change (local_list ?s) with (side_list true s). rewrite (side_at eqb c os true i), map_length. reflexivity. }
      rewrite F, (proj1 (turn_len eqb c os i V)) in L. lia.
Qed.
Print Assumptions C135_latest.

(** From the last cross validation [i] on, the model of each kind is fixed: it is one of the
    choices that had not failed when [i] was reached, and no model was chosen more often. *)
Theorem C135_final : forall (M : Type) (eqb : M -> M -> bool), decides eqb -> forall (c : sel_cfg M) os i,
  validates_at eqb c os i = true -> length (filter (validates_at eqb c os) (seq 0 (S i))) = c_maxcv c ->
  forall loc, exists m, (forall t, i <= t -> local_side c (os t) = loc -> used_at eqb c os t = m) /\
    forall L, unspoiled c os loc i L ->
      In m (map (fun x => found_for loc (os x) (previous c (used_at eqb c os) x)) L) /\
      forall m', votes eqb c os (used_at eqb c os) loc L m' <= votes eqb c os (used_at eqb c os) loc L m.
Proof.
  intros M eqb E c os i V L loc. rewrite validates_turn in V.
  assert (EL : S (eligible_before c os i) = c_maxcv c).
  { assert (E1 : length (filter (validates_at eqb c os) (seq 0 (S i))) = length (turns c os (S i))).
    { f_equal. apply filter_ext. intros x. apply validates_turn. }
    rewrite E1, (turns_turn c os i V), app_length in L. cbn [length] in L.
    assert (F : length (turns c os i) = length (local_list (serial_at eqb c os i))).
    { change (local_list ?s) with (side_list true s). rewrite (side_at eqb c os true i), map_length. reflexivity. }
    rewrite F, (proj1 (turn_len eqb c os i V)) in L. lia. }
  exists (bests eqb c os i loc). split.
  - intros t Ht <-. rewrite used_bests. apply bests_stay; [exact Ht|].
    intros l Hl. unfold turn. destruct (eligible_before c os l <? c_maxcv c) eqn:X; [|apply Bool.andb_false_r].
    apply Nat.ltb_lt in X. exfalso.
    assert (Mono : forall a b, a <= b -> eligible_before c os a <= eligible_before c os b).
    { intros a b Hab. induction Hab; [lia|]. rewrite eligible_before_S. lia. }
    assert (Y : eligible_before c os (S i) = S (eligible_before c os i)).
    { rewrite eligible_before_S. unfold turn in V. apply andb_prop in V. rewrite (proj1 V). lia. }
    specialize (Mono (S i) l ltac:(lia)). lia.
  - intros L' U. destruct (last_choice eqb E c os i loc V EL L' U) as [(x & Hx & ->) B]. split; [|exact B].
    apply in_map_iff. exists x. auto.
Qed.
Print Assumptions C135_final.

(** Only the initial model and models found by a cross validation are ever used (in particular
    the built-in replacement for 'all choices failed' never is). *)
Theorem C135_origin : forall (M : Type) (eqb : M -> M -> bool), decides eqb -> forall (c : sel_cfg M) os t,
  used_at eqb c os t = c_init c \/
  exists i, i <= t /\ validates_at eqb c os i = true /\
    used_at eqb c os t = found_for (local_side c (os t)) (os i) (previous c (used_at eqb c os) i).
Proof.
  intros M eqb E c os t.
  destruct (turns c os (S t)) as [|a r] eqn:Q.
  - left. rewrite used_bests. apply bests_init. intros i Hi. destruct (turn c os i) eqn:T; [|reflexivity].
    exfalso. assert (X : In i (turns c os (S t))) by (apply filter_In; split; [apply in_seq; lia|exact T]). rewrite Q in X. exact X.
  - right. destruct (@exists_last _ (turns c os (S t))) as (pre & i & P); [rewrite Q; discriminate|].
    destruct (turns_split c os _ _ _ P) as (A & B & _).
    assert (V : turn c os i = true).
    { assert (X : In i (turns c os (S t))) by (rewrite P; apply in_or_app; right; left; reflexivity). apply turns_lt in X. apply X. }
    assert (St : used_at eqb c os t = bests eqb c os i (local_side c (os t))).
    { rewrite used_bests. apply bests_stay; [exact B|]. intros l Hl. destruct (turn c os l) eqn:T; [|reflexivity].
      exfalso. assert (X : existsb (turn c os) (seq (S i) (t - i)) = true) by (apply existsb_turn; exists l; split; [lia|exact T]). congruence. }
    destruct (turn_len eqb c os i V) as [_ Lt].
    destruct (Nat.eq_dec (S (eligible_before c os i)) (c_maxcv c)) as [Eq|Ne].
    + destruct (last_choice eqb E c os i (local_side c (os t)) V Eq _ (kept_unspoiled c os _ i)) as [(x & Hx & Ex) _].
      apply (kept_unspoiled c os) in Hx. destruct Hx as (H1 & H2 & _). exists x. split; [lia|].
      split; [rewrite validates_turn; exact H2|]. rewrite St. exact Ex.
    + exists i. split; [exact B|]. split; [rewrite validates_turn; exact V|]. rewrite St. apply bests_turn; [exact V|lia].
Qed.
Print Assumptions C135_origin.

(** A run over models numbered 0, 1, ...: the validation of iteration [i] finds [5 + i] (local)
    and [8] (global), every third iteration begins a cycle, iterations 1 and 7 fail. *)
Definition sel_os (i : nat) : sel_in nat :=
  mkSelIn (10 + i) (i mod 3) (fun m => (5 + i, m)) (fun m => (8, m)) (Nat.eqb i 1 || Nat.eqb i 7)%bool.
Definition sel_c : sel_cfg nat := mkSelCfg true 4 0 2 2 0 99.
Example C135_when_case : map (validates_at Nat.eqb sel_c sel_os) (seq 0 9) =
  [true; false; false; true; false; false; false; false; false].
Proof. reflexivity. Qed.
Example C135_user_model_case : map (used_at Nat.eqb (mkSelCfg false 4 0 2 2 7 99) sel_os) (seq 0 5) = [7; 7; 7; 7; 7].
Proof. reflexivity. Qed.
(** The local choice of iteration 0 failed in iteration 1: from iteration 3 on only the choice of
    iteration 3 counts for the local model. *)
Example C135_final_case : decides Nat.eqb /\ validates_at Nat.eqb sel_c sel_os 3 = true /\
  length (filter (validates_at Nat.eqb sel_c sel_os) (seq 0 4)) = 2 /\
  unspoiled sel_c sel_os true 3 [3] /\ unspoiled sel_c sel_os false 3 [0; 3] /\
  map (used_at Nat.eqb sel_c sel_os) (seq 0 9) = [8; 5; 5; 8; 8; 8; 8; 8; 8].
Proof.
  split; [intros x y; apply Nat.eqb_eq|]. split; [reflexivity|]. split; [reflexivity|]. split; [|split].
  - exact (kept_unspoiled sel_c sel_os true 3).
  - exact (kept_unspoiled sel_c sel_os false 3).
  - reflexivity.
Qed.
Example C135_latest_case : validates_at Nat.eqb sel_c sel_os 0 = true /\
  (forall l, 0 < l <= 2 -> validates_at Nat.eqb sel_c sel_os l = false) /\
  length (filter (validates_at Nat.eqb sel_c sel_os) (seq 0 1)) < c_maxcv sel_c /\ used_at Nat.eqb sel_c sel_os 2 = 5.
Proof.
  split; [reflexivity|]. split; [|split; [cbn; lia|reflexivity]].
  intros l Hl. assert (H : l = 1 \/ l = 2) by lia. destruct H as [-> | ->]; reflexivity.
Qed.


(** Refuted: "a model whose linear system failed is not used again".  Here the system fails in
    every iteration, yet from the last cross validation (iteration 0) on the same two models are
    used for ever. *)
Definition fail_os (i : nat) : sel_in nat := mkSelIn 10 (i mod 4) (fun m => (5, m)) (fun m => (8, m)) true.
Definition fail_c : sel_cfg nat := mkSelCfg true 2 0 3 1 0 99.
Theorem C135_failed_model_dropped_refuted : validates_at Nat.eqb fail_c fail_os 0 = true /\
  forall t, o_fails (fail_os t) = true /\ o_step (fail_os t) <= c_localstep fail_c /\
    used_at Nat.eqb fail_c fail_os t = if 2 <=? o_step (fail_os t) then 5 else 8.
Proof.
  split; [reflexivity|]. intros t. split; [reflexivity|].
  split; [cbn [fail_os o_step c_localstep fail_c]; pose proof (Nat.mod_upper_bound t 4 ltac:(lia)); lia|].
  assert (D : decides Nat.eqb) by (intros x y; apply Nat.eqb_eq).
  destruct (C135_final nat Nat.eqb D fail_c fail_os 0 eq_refl eq_refl (local_side fail_c (fail_os t))) as (m & H & U).
  rewrite (H t (Nat.le_0_l t) eq_refl). change (2 <=? o_step (fail_os t)) with (local_side fail_c (fail_os t)).
  specialize (U _ (kept_unspoiled fail_c fail_os (local_side fail_c (fail_os t)) 0)). destruct U as [U _].
  destruct (local_side fail_c (fail_os t)); cbn in U; destruct U as [<-|[]]; reflexivity.
Qed.
Print Assumptions C135_failed_model_dropped_refuted.

(** Refuted: "a cross validation that cannot rate any model leaves the model in use unchanged".
    [validation q] is the cross validation of the code for the quality estimates [q]. *)
Definition model_eqb (a b : rbf_kind * R) : bool :=
  (match fst a, fst b with
   | Cubic, Cubic | ThinPlate, ThinPlate | Multiquadric, Multiquadric | Linear, Linear | Gaussian, Gaussian => true
   | _, _ => false
   end && if Req_EM_T (snd a) (snd b) then true else false)%bool.
Lemma model_eqb_ok : decides model_eqb.
Proof.
  intros [a x] [b y]. unfold model_eqb. cbn [fst snd]. destruct (Req_EM_T x y) as [->|N].
  - destruct a, b; cbn; split; congruence.
  - rewrite Bool.andb_false_r. split; congruence.
Qed.
Definition validation (q : rbf_kind * R -> option Z) : rbf_kind * R -> (rbf_kind * R) * (rbf_kind * R) := get_best_rbf_model q.
Theorem C135_unrated_refuted : exists (c : sel_cfg (rbf_kind * R)) os,
  (forall i, o_local (os i) = validation (fun _ => None) /\ o_global (os i) = validation (fun _ => None)) /\
  c_init c = (ThinPlate, 1/10)%R /\ used_at model_eqb c os 0 = (Cubic, 1/10)%R.
Proof.
  exists (mkSelCfg true 2 0 2 3 (ThinPlate, 1/10)%R (Cubic, 1/10)%R),
    (fun _ => mkSelIn 10 0 (validation (fun _ => None)) (validation (fun _ => None)) false).
  split; [auto|]. split; reflexivity.
Qed.
Print Assumptions C135_unrated_refuted.
(** With estimates for all models, the choice is the best rated one, and the global choice does
    not depend on what the local one left behind. *)
Theorem C135_rated : forall (c : sel_cfg (rbf_kind * R)) os ql qg i,
  o_local (os i) = validation ql -> o_global (os i) = validation qg ->
  (forall m, exists e, ql m = Some e) -> (forall m, exists e, qg m = Some e) ->
  let used := used_at model_eqb c os in
  forall loc m, In m candidates -> forall e e',
    (if loc : bool then ql else qg) (found_for loc (os i) (previous c used i)) = Some e' ->
    (if loc then ql else qg) m = Some e -> (e' <= e)%Z.
Proof.
  intros c os ql qg i Hl Hg Rl Rg used loc m Hm e e' F E.
  assert (K : forall q, (forall m, exists e, q m = Some e) -> forall s, exists m0 e0, validation q s = (m0, s) /\ q m0 = Some e0 /\
     forall t e1, In t candidates -> q t = Some e1 -> (e0 <= e1)%Z).
  { intros q Rq s. destruct (selection_success q s) as (before & m0 & after & e0 & C1 & C2 & C3 & C4 & C5).
    { intros t _. apply Rq. }
    exists m0, e0. split; [exact C2|]. split; [exact C3|]. intros t e1 Ht Et.
    rewrite C1 in Ht. apply in_app_or in Ht. destruct Ht as [Ht|[->|Ht]].
    - apply Z.lt_le_incl. exact (C4 t e1 Ht Et).
    - assert (e0 = e1) by congruence. lia.
    - exact (C5 t e1 Ht Et). }
  unfold found_for, found_local, found_global in F. rewrite Hl, Hg in F.
  destruct (K ql Rl (previous c used i)) as (m0 & e0 & V1 & V2 & V3).
  destruct loc.
  - rewrite V1 in F. cbn [fst] in F. assert (e0 = e') by congruence. subst. exact (V3 m e Hm E).
  - rewrite V1 in F. cbn [snd] in F. destruct (K qg Rg (previous c used i)) as (m1 & e1 & W1 & W2 & W3).
    rewrite W1 in F. cbn [fst] in F. assert (e1 = e') by congruence. subst. exact (W3 m e Hm E).
Qed.
Print Assumptions C135_rated.
Example C135_rated_case : forall m, exists e, (fun m : rbf_kind * R => match fst m with Linear => Some 1%Z | _ => Some 2%Z end) m = Some e.
Proof. intros [[] g]; eexists; reflexivity. Qed.

(** ** C136 *)
(** The parallel loop keeps exactly the state of the serial one, except that it raises an
    exception at the first unsolvable system before any cross validation took place. *)
Theorem C136_parallel : forall (M : Type) (eqb : M -> M -> bool) (c : sel_cfg M) os,
  (forall i, o_step (os i) <= c_localstep c) -> forall t,
  (parallel_at eqb c os t = None <->
     exists j, j < t /\ o_fails (os j) = true /\ forall i, i <= j -> validates_at eqb c os i = false) /\
  (forall s, parallel_at eqb c os t = Some s -> s = serial_at eqb c os t).
Proof.
  intros M eqb c os H t. pose proof (parallel_serial eqb c os H t) as P. destruct (parallel_at eqb c os t) as [s|].
  - destruct P as [-> P]. split; [split; [discriminate|]|intros s' Es; congruence].
    intros (j & Hj & F & N). destruct (P j Hj F) as (i & Hi & T). rewrite <- validates_turn with (eqb := eqb) in T.
    rewrite (N i Hi) in T. discriminate.
  - split; [|discriminate]. split; [intros _|reflexivity]. destruct P as (j & Hj & F & N). exists j. split; [exact Hj|].
    split; [exact F|]. intros i Hi. rewrite validates_turn. apply N, Hi.
Qed.
Print Assumptions C136_parallel.
(** Refuted: "with a model chosen by the user, an unsolvable system starts the restoration". *)
Theorem C136_user_model_raises_refuted : forall (M : Type) (eqb : M -> M -> bool) (c : sel_cfg M) os j,
  (forall i, o_step (os i) <= c_localstep c) -> c_auto c = false -> o_fails (os j) = true ->
  parallel_at eqb c os (S j) = None.
Proof.
  intros M eqb c os j H A F. apply (proj1 (C136_parallel M eqb c os H (S j))). exists j.
  split; [lia|]. split; [exact F|]. intros i _. rewrite validates_turn. unfold turn, eligible. rewrite A. reflexivity.
Qed.
Print Assumptions C136_user_model_raises_refuted.
Example C136_case : (forall i, o_step (sel_os i) <= c_localstep sel_c) /\
  o_fails (sel_os 1) = true /\ parallel_at Nat.eqb sel_c sel_os 9 <> None /\
  (forall i, o_step (sel_os i) <= c_localstep (mkSelCfg false 4 0 2 2 7 99)).
Proof.
  assert (H : forall i, i mod 3 <= 2) by (intros i; pose proof (Nat.mod_upper_bound i 3 ltac:(lia)); lia).
  split; [exact H|]. split; [reflexivity|]. split; [|exact H].
  intros N. apply (proj1 (C136_parallel nat Nat.eqb sel_c sel_os H 9)) in N. destruct N as (j & _ & _ & V).
  specialize (V 0 (Nat.le_0_l j)). rewrite validates_turn in V. discriminate V.
Qed.
