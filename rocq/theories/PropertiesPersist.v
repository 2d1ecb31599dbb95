(** * Properties of saving, loading and resuming (C17, C19, C105, C106).

    Vocabulary: [SpecPersist]; model: [ModelPersist]. *)
From Verif Require Import PersistProofs WitnessAlg.
From Coq Require Import String Lia Lqa.
Open Scope Z_scope.

(** ** C17 *)
(** Loading what was saved, in any later process: every attribute and the generator are back, and
    [optimize] does the same in both. *)
Theorem C17_resume : forall pk env f o w o1 w1 w2 x,
  pickle_ok pk -> o_stream o = Some x -> save pk f o w = Some (o1, w1) -> w_disk w2 f = w_disk w1 f ->
  exists o2 w3, load pk f w2 = Some (o2, w3) /\ same_attributes o2 o /\ w_rng w3 = w_rng w /\
    o_stream o2 = Some stdout /\
    forall pause m tr, optimize env pause m o2 w3 tr = optimize env pause m o w tr.
Proof.
  intros pk env f o w o1 w1 w2 x Hp Hx Hs Hd. destruct (load_saved pk f o w o1 w1 w2 Hp Hs Hd) as (L & _ & _).
  do 2 eexists. split; [exact L|]. split; [repeat split|]. split; [reflexivity|]. split; [reflexivity|].
  intros pause m tr. unfold optimize. rewrite Hx. reflexivity.
Qed.
Print Assumptions C17_resume.
(** Saving does not disturb the run: only the stored generator state changes. *)
Theorem C17_save_is_transparent : forall pk env f o w o1 w1, save pk f o w = Some (o1, w1) ->
  same_attributes o1 o /\ o_stream o1 = o_stream o /\ w_rng w1 = w_rng w /\
  (forall g, g <> f -> w_disk w1 g = w_disk w g) /\
  forall pause m tr, optimize env pause m o1 w1 tr = optimize env pause m o w tr.
Proof.
  intros pk env f o w o1 w1 H. unfold save in H. destruct (dump pk (to_dump o w)) as [b|]; [|discriminate].
  injection H as <- <-. split; [repeat split|]. split; [reflexivity|]. split; [reflexivity|].
  split; [intros g Hg; apply write_other; congruence|]. reflexivity.
Qed.
Print Assumptions C17_save_is_transparent.
(** The checkpoint written at the end of a pass: the main loop going on ([passes]) and a fresh process that
    loads the file and calls [optimize] with the iterations that remain evaluate the same points with
    the same answers. *)
Theorem C17_checkpoint : forall pk env f o w o1 w1 w2 s l x,
  pickle_ok pk ->
  has_noisy (o_cfg o) = false -> noisy_mode (C s) = false ->
  o_T o = T s -> o_I o = I s -> o_C o = C s -> o_R o = Rf s -> o_stream o = Some x ->
  itercount (C s) <> 0 -> current_gap (o_cfg o) s = Ok (gap l) ->
  save pk f o w = Some (o1, w1) -> w_disk w2 f = w_disk w1 f ->
  exists o2 w3, load pk f w2 = Some (o2, w3) /\
    forall pause' m, itercount (C s) + pause' = it_start l + pause l ->
    exists p, optimize env pause' m o2 w3 (trace s) = Some p /\
      same_outcome p (passes env (o_cfg o) m (w_rng w) (o_bb o) s l).
Proof.
  intros pk env f o w o1 w1 w2 s l x Hp Hn Hm HT HI HC HR Hx Hit Hg Hs Hd.
  destruct (C17_resume pk env f o w o1 w1 w2 x Hp Hx Hs Hd) as (o2 & w3 & L & _ & _ & _ & E).
  exists o2, w3. split; [exact L|]. intros pause' m Hpa. rewrite E. unfold optimize. rewrite Hx, HT, HI, HC, HR.
  replace (mkSt (T s) (I s) (C s) (Rf s) (trace s)) with s by (destruct s; reflexivity).
  destruct (Z.eqb_spec (itercount (C s)) 0) as [?|_]; [contradiction|].
  destruct (env (w_rng w) (o_bb o) (T s) (I s) (C s) (Rf s)) as [[i r'] b'].
  unfold start_call. destruct (Z.eqb_spec (itercount (C s)) 0) as [?|_]; [contradiction|].
  cbn [bind]. rewrite Hg. cbn [bind]. eexists. split; [reflexivity|].
  apply passes_same_remaining; auto.
Qed.
Print Assumptions C17_checkpoint.

(** ** C19 *)
(** The crash points of a save, in order: the old file is there before the open, after it only the
    bytes written so far. *)
Theorem C19_crash_points : forall pk f o w chunks b j d,
  pickle_ok pk -> dump pk (to_dump o w) = Some b -> List.concat chunks = b ->
  (j < List.length (save_states f chunks o w))%nat ->
  let crashed := snd (nth j (save_states f chunks o w) d) in
  ((j < 3)%nat -> w_disk crashed = w_disk w) /\
  ((3 <= j)%nat -> readable pk f crashed <-> List.concat (firstn (j - 3) chunks) = b).
Proof.
  intros pk f o w chunks b j d Hp Hb Hc Hj crashed. rewrite states_length in Hj. split.
  - apply states_early.
  - intros H3. pose proof (states_late f chunks o w d j ltac:(lia)) as E. fold crashed in E.
    unfold readable, load. rewrite E. destruct (Hp _ _ Hb) as (U & P).
    rewrite (concat_firstn_prefix chunks (j - 3)) in Hc.
    destruct (List.concat (skipn (j - 3) chunks)) as [|y r] eqn:Er.
    + rewrite app_nil_r in Hc. rewrite Hc, U. cbn. split; auto. intros _. eauto.
    + rewrite (P _ (y :: r) (eq_sym Hc)) by discriminate. split; [intros (? & ? & ?); discriminate|].
      intros Hcc. rewrite Hcc in Hc. apply (f_equal (@List.length byte)) in Hc. rewrite app_length in Hc. cbn in Hc. lia.
Qed.
Print Assumptions C19_crash_points.
(** Whatever is saved over whatever file, some crash point leaves nothing that can be loaded. *)
Theorem C19_atomicity_refuted : forall pk f o w chunks b d,
  pickle_ok pk -> dump pk (to_dump o w) = Some b -> List.concat chunks = b -> b <> [] ->
  exists j, (j < List.length (save_states f chunks o w))%nat /\
    ~ readable pk f (snd (nth j (save_states f chunks o w) d)).
Proof.
  intros pk f o w chunks b d Hp Hb Hc Hne. assert (J : (3 < List.length (save_states f chunks o w))%nat) by (rewrite states_length; lia).
  exists 3%nat. split; [exact J|]. intros R.
  apply (proj2 (C19_crash_points pk f o w chunks b 3 d Hp Hb Hc J) (Nat.le_refl 3)) in R. cbn in R. congruence.
Qed.
Print Assumptions C19_atomicity_refuted.
(** The last state is that of a completed save, and the file is readable. *)
Theorem C19_completed : forall pk f o w chunks b d,
  pickle_ok pk -> dump pk (to_dump o w) = Some b -> List.concat chunks = b ->
  let final := nth (List.length (save_states f chunks o w) - 1) (save_states f chunks o w) d in
  save pk f o w = Some final /\ readable pk f (snd final).
Proof.
  intros pk f o w chunks b d Hp Hb Hc final.
  assert (E : final = (set_random (w_rng w) o, write f b w)).
  { unfold final. rewrite states_length. unfold save_states.
    rewrite app_nth2 by (cbn; lia). cbn [List.length].
    rewrite app_nth2; rewrite map_length, growing_length; [|lia].
    replace (List.length chunks + 5 - 1 - 4 - List.length chunks)%nat with 0%nat by lia. cbn [nth]. rewrite Hc. reflexivity. }
  rewrite E. split.
  - unfold save. rewrite Hb. destruct o; reflexivity.
  - unfold readable, load. cbn [snd]. rewrite write_same. destruct (Hp _ _ Hb) as (-> & _). cbn. eauto.
Qed.
Print Assumptions C19_completed.

(** ** C105 *)
(** After a failed save every call of [optimize] raises, until an output stream is set again; and when
    the file had been opened, the checkpoint that was there is gone. *)
Theorem C105_failed_save : forall pk env f o w written o1 w1,
  failed_save f written o w = (o1, w1) ->
  (forall pause m tr, optimize env pause m o1 w1 tr = None) /\
  (forall y pause m tr x, o_stream o = Some x ->
     optimize env pause m (set_stream (Some y) o1) w1 tr = optimize env pause m o w tr) /\
  (written = None -> w1 = w) /\
  (forall b, written = Some b -> undump pk b = None -> ~ readable pk f w1).
Proof.
  intros pk env f o w written o1 w1 H. unfold failed_save in H. injection H as <- <-.
  split; [reflexivity|]. split; [|split].
  - intros y pause m tr x Hx. unfold optimize. rewrite Hx. destruct written; reflexivity.
  - intros ->. reflexivity.
  - intros b -> Hb (a & w' & L). unfold load in L. rewrite write_same, Hb in L. discriminate.
Qed.
Print Assumptions C105_failed_save.

(** ** C106 *)
(** One call runs at most one pass beyond the limit ... *)
Theorem C106_call_limit : forall limit M ds, (0 < limit)%Q -> (0 <= M)%Q -> Forall (fun d => (0 <= d <= M)%Q) ds ->
  (0 <= clocked limit 0 ds)%Q /\ (clocked limit 0 ds < limit + M)%Q.
Proof.
  intros limit M ds Hl HM HF. split.
  - apply clocked_ge. eapply Forall_impl; [|exact HF]. cbn. intros a H. lra.
  - apply clocked_bound; [exact HM|lra|]. eapply Forall_impl; [|exact HF]. cbn. intros a H. lra.
Qed.
Print Assumptions C106_call_limit.
(** ... but each call starts its own clock: the total time is not limited. *)
Theorem C106_total_limit_refuted : forall limit (k : nat), (0 < limit)%Q ->
  (elapsed limit 0 (repeat [limit] k) == inject_Z (Z.of_nat k) * limit)%Q.
Proof.
  intros limit k Hl. unfold elapsed.
  assert (One : (clocked limit 0 [limit] == limit)%Q).
  { cbn. destruct (Qltb_cases 0 limit) as [[-> L]|[-> L]]; lra. }
  assert (G : forall k t, (fold_left (fun t ds => (t + clocked limit 0 ds)%Q) (repeat [limit] k) t == t + inject_Z (Z.of_nat k) * limit)%Q).
  { clear k. induction k as [|k IH]; intros t; cbn [repeat fold_left]; [cbn; ring|].
    rewrite IH, One, Nat2Z.inj_succ, <- Z.add_1_r, inject_Z_plus. ring. }
  rewrite G. ring.
Qed.
Print Assumptions C106_total_limit_refuted.
Example C106_case : (clocked 10 0 [4; 5; 3; 7; 2] == 12)%Q /\ (elapsed 10 0 [[4; 5; 3; 7]; [9; 9]] == 30)%Q.
Proof. split; reflexivity. Qed.

(** ** A concrete case *)
Definition obj_eq_dec (a b : obj) : {a = b} + {a <> b}.
Proof. repeat decide equality. Defined.

Definition bytes_eq_dec (a b : list nat) : {a = b} + {a <> b} := List.list_eq_dec Nat.eq_dec a b.
(** A pickle that knows one object, in three bytes. *)
Definition pk1 (o0 : obj) : pickle := mkPickle
  (fun o => if obj_eq_dec o o0 then Some [128; 4; 46]%nat else None)
  (fun b => if bytes_eq_dec b [128; 4; 46]%nat then Some o0 else None).
Lemma pk1_ok o0 : pickle_ok (pk1 o0).
Proof.
  intros o b H. cbn in H. destruct (obj_eq_dec o o0) as [->|]; [|discriminate]. injection H as <-. split.
  - cbn [undump pk1]. match goal with |- context [bytes_eq_dec ?a ?b] => destruct (bytes_eq_dec a b) end; [reflexivity|congruence].
  - intros q r E Hr. cbn [undump pk1]. match goal with |- context [bytes_eq_dec ?a ?b] => destruct (bytes_eq_dec a b) as [->|] end; [|reflexivity].
    apply (f_equal (@List.length nat)) in E. rewrite app_length in E. destruct r; [congruence|]. cbn in E. lia.
Qed.
(** The state of the ordinary run after five iterations, checkpointed with its generator. *)
Definition obj5 : obj := mkObj (wcfg kn0) [3] (T s_ord) (I s_ord) (C s_ord) (Rf s_ord) 12 None (Some 1%nat).
Definition world5 : world := mkWorld [17; 4] (fun _ => Some [7]%nat).
Definition env5 : environment := fun r b _ _ _ _ => (dflt_inp, 0 :: r, 1 :: b).
Definition pk5 := pk1 (to_dump obj5 world5).
Example C17_case :
  pickle_ok pk5 /\ save pk5 "state.dat" obj5 world5 <> None /\ has_noisy (o_cfg obj5) = false /\ noisy_mode (C s_ord) = false /\ itercount (C s_ord) = 5 /\ current_gap (o_cfg obj5) s_ord = Ok (gap l_ord).
Proof.
  split; [apply pk1_ok|]. split.
  - unfold save, pk5, pk1. cbn [dump]. match goal with |- context [obj_eq_dec ?a ?b] => destruct (obj_eq_dec a b) end; [discriminate|congruence].
  - repeat split; vm_compute; reflexivity.
Qed.
Example C19_case : dump pk5 (to_dump obj5 world5) = Some (List.concat [[128; 4]; [46]]%nat) /\ ~ readable pk5 "state.dat" (snd (nth 4 (save_states "state.dat" [[128; 4]; [46]]%nat obj5 world5) (obj5, world5))) /\ readable pk5 "state.dat" (snd (nth 5 (save_states "state.dat" [[128; 4]; [46]]%nat obj5 world5) (obj5, world5))).
Proof.
  assert (D : dump pk5 (to_dump obj5 world5) = Some (List.concat [[128; 4]; [46]])%nat).
  { unfold pk5, pk1. cbn [dump]. match goal with |- context [obj_eq_dec ?a ?b] => destruct (obj_eq_dec a b) end; [reflexivity|congruence]. }
  split; [exact D|].
  assert (H : forall j, (3 <= j < 7)%nat -> readable pk5 "state.dat" (snd (nth j (save_states "state.dat" [[128; 4]; [46]]%nat obj5 world5) (obj5, world5))) <->
    List.concat (firstn (j - 3) [[128; 4]; [46]]%nat) = List.concat [[128; 4]; [46]]%nat).
  { intros j Hj. apply (C19_crash_points pk5 "state.dat" obj5 world5 _ _ j (obj5, world5) (pk1_ok _) D eq_refl); [|lia].
    rewrite states_length. cbn. lia. }
  split; rewrite H by lia; cbn; [discriminate|reflexivity].
Qed.
Example C105_case : let r := failed_save "state.dat" (Some [128]%nat) obj5 world5 in
  optimize env5 10 1 (fst r) (snd r) [] = None /\ ~ readable pk5 "state.dat" (snd r).
Proof.
  destruct (failed_save "state.dat" (Some [128]%nat) obj5 world5) as [o1 w1] eqn:E.
  destruct (C105_failed_save pk5 env5 _ _ _ _ _ _ E) as (H1 & _ & _ & H4). cbn [fst snd]. split; [apply H1|].
  apply (H4 [128]%nat eq_refl). reflexivity.
Qed.
