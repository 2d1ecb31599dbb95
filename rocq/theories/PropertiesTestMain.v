(** C144: the interface that optimizes a benchmark function. *)
From Coq Require Import List String ZArith QArith Reals Qreals Lia Lqa.
From Verif Require Import ModelBench SpecBench PropertiesBench.
From Verif Require Import BaseLemmas SettingsProofs SettingsGlue CLIProofs PropertiesCLI ModelTestMain.
Open Scope string_scope.
Open Scope Q_scope.

(** What the command line asks for. *)
Definition wants_noise (t : test_options) : Prop := 0 < to_rel t \/ 0 < to_abs t.
Definition wants_copies (t : test_options) : Prop := (1 < to_mult t)%Z.
(** A black box is noisy / enlarged, with these parameters. *)
Definition noisy_with (x : test_box) (r a : Q) : Prop := exists i, x = NoisyBox i r a.
Fixpoint without_noise (x : test_box) : test_box := match x with NoisyBox i _ _ => without_noise i | _ => x end.

Lemma positive_bool q : negb (Qle_bool q 0) = true <-> 0 < q.
Proof.
  rewrite negb_true_iff. split.
  - intros H. destruct (Qlt_le_dec 0 q) as [L|L]; [exact L|]. apply Qle_bool_iff in L. congruence.
  - intros H. destruct (Qle_bool q 0) eqn:E; [|reflexivity]. apply Qle_bool_iff in E. lra.
Qed.

Lemma test_class_some name b : test_class name = Some b -> In b all_benchmarks /\ b_name b = lower name.
Proof.
  unfold test_class. intros H. apply find_some in H. destruct H as [I E]. split; [exact I|].
  apply String.eqb_eq, E.
Qed.
Lemma test_class_none name : test_class name = None <-> ~ exists b, In b all_benchmarks /\ b_name b = lower name.
Proof.
  unfold test_class. split.
  - intros H (b & I & E). pose proof (find_none _ _ H b I) as N. cbn beta in N. rewrite E, String.eqb_refl in N. discriminate.
  - intros N. destruct (find _ _) as [b|] eqn:F; [|reflexivity]. exfalso. apply N. exists b.
    apply find_some in F. destruct F as [I E]. split; [exact I|]. apply String.eqb_eq, E.
Qed.

Lemma build_box_spec t x : build_box t = TOk x ->
  exists b, test_class (to_name t) = Some b /\ function_of x = b /\
  (wants_noise t <-> noisy_with x (to_rel t) (to_abs t)) /\
  (~ wants_noise t -> forall r a, ~ noisy_with x r a) /\
  (wants_noise t -> 0 <= to_rel t /\ 0 <= to_abs t) /\
  (wants_copies t <-> without_noise x = EnlargedBox b (to_mult t)) /\
  (~ wants_copies t <-> without_noise x = PlainBox b).
Proof.
  unfold build_box. destruct (test_class (to_name t)) as [b|] eqn:C; [|discriminate]. intros H. exists b.
  split; [reflexivity|].
  set (e := (1 <? to_mult t)%Z) in *.
  assert (We : wants_copies t <-> e = true) by (unfold e; rewrite Z.ltb_lt; reflexivity).
  set (n := negb (Qle_bool (to_rel t) 0) || negb (Qle_bool (to_abs t) 0)) in *.
  assert (Wn : wants_noise t <-> n = true)
    by (unfold n, wants_noise; rewrite orb_true_iff, !positive_bool; reflexivity).
  set (bb := if e then EnlargedBox b (to_mult t) else PlainBox b) in *.
  assert (B1 : function_of bb = b) by (unfold bb; destruct e; reflexivity).
  assert (B2 : without_noise bb = bb) by (unfold bb; destruct e; reflexivity).
  assert (B3 : forall i r a, bb <> NoisyBox i r a) by (intros; unfold bb; destruct e; discriminate).
  assert (B4 : (e = true <-> bb = EnlargedBox b (to_mult t)) /\ (~ e = true <-> bb = PlainBox b))
    by (unfold bb; destruct e; split; split; intros; try discriminate; try reflexivity; exfalso; auto).
  rewrite We, Wn. destruct n.
  - destruct (Qle_bool 0 (to_rel t) && Qle_bool 0 (to_abs t)) eqn:S; [|discriminate]. injection H as <-.
    apply andb_true_iff in S. rewrite !Qle_bool_iff in S. cbn [function_of without_noise]. rewrite B1, B2.
    split; [reflexivity|]. split; [split; [intros _; eexists; reflexivity|reflexivity]|].
    split; [intros N; exfalso; auto|]. split; [intros _; exact S|]. exact B4.
  - injection H as <-. rewrite B1, B2. split; [reflexivity|].
    split; [split; [discriminate|intros [i E]; exfalso; exact (B3 _ _ _ E)]|].
    split; [intros _ r a [i E]; exact (B3 _ _ _ E)|]. split; [discriminate|]. exact B4.
Qed.

Lemma effective_target v args k w : In "target_objval" (keys args) ->
  effective (update "target_objval" v args) k w <->
  (if String.eqb k "target_objval" then w = v else effective args k w).
Proof.
  intros HI. unfold effective. rewrite lookup_update. destruct (String.eqb k "target_objval") eqn:E.
  - apply String.eqb_eq in E. subst. apply lookup_keys in HI. destruct HI as [z ->].
    split; [intros [H|[H _]]; congruence|intros ->; now left].
  - reflexivity.
Qed.
Lemma target_not_enum : ~ enumerated "target_objval".
Proof.
  intros H. unfold enumerated in H. destruct H as [s H]. unfold choice in H.
  repeat (destruct H as [[H _]|H]; [discriminate|]). destruct H as [H _]; discriminate.
Qed.
Lemma target_not_nonneg : ~ must_be_nonnegative "target_objval".
Proof. rewrite must_nonneg, <- mem_In. vm_compute. discriminate. Qed.

Lemma In_update k v d x : In x (update k v d) -> In x d \/ (exists w, In (k, w) d) /\ x = (k, v).
Proof.
  induction d as [|[a w] r IH]; cbn [update]; [intros []|]. destruct (String.eqb k a) eqn:E.
  - apply String.eqb_eq in E. subst. intros [<-|H]; [right; split; [exists w; now left|reflexivity]|left; now right].
  - intros [<-|H]; [left; now left|]. destruct (IH H) as [A|[[y A] B]]; [left; now right|right; split; [exists y; now right|exact B]].
Qed.

Lemma valid_target v args : In "target_objval" (keys args) ->
  (valid_args (update "target_objval" v args) <-> valid_args args).
Proof.
  intros HI. unfold valid_args.
  assert (A : (forall k w, In (k, w) (update "target_objval" v args) -> parameter k) <->
              (forall k w, In (k, w) args -> parameter k)).
  { assert (A' : forall k, (exists w, In (k, w) (update "target_objval" v args)) <-> exists w, In (k, w) args).
    { intros k. rewrite <- !In_keys, keys_update. reflexivity. }
    split; intros H k w Hk.
    - destruct (proj2 (A' k) (ex_intro _ w Hk)) as [w' Hw]. exact (H k w' Hw).
    - destruct (proj1 (A' k) (ex_intro _ w Hk)) as [w' Hw]. exact (H k w' Hw). }
  rewrite A.
  assert (E : forall k w, k <> "target_objval" -> (effective (update "target_objval" v args) k w <-> effective args k w)).
  { intros k w N. rewrite (effective_target v args k w HI). apply String.eqb_neq in N. rewrite N. reflexivity. }
  assert (B : (forall o, enumerated o -> exists s, effective (update "target_objval" v args) o (PStr s) /\ choice o s) <->
              (forall o, enumerated o -> exists s, effective args o (PStr s) /\ choice o s)).
  { split; intros H o Ho; destruct (H o Ho) as (s & E1 & E2); exists s; (split; [|exact E2]);
    apply E in E1 || apply E; try exact E1; intros ->; exact (target_not_enum Ho). }
  assert (D : (forall k, must_be_nonnegative k -> exists w, effective (update "target_objval" v args) k w /\ nonnegative w) <->
              (forall k, must_be_nonnegative k -> exists w, effective args k w /\ nonnegative w)).
  { split; intros H o Ho; destruct (H o Ho) as (s & E1 & E2); exists s; (split; [|exact E2]);
    apply E in E1 || apply E; try exact E1; intros ->; exact (target_not_nonneg Ho). }
  rewrite B, D. reflexivity.
Qed.

Lemma target_parameter : parameter "target_objval".
Proof. apply parameter_keys, mem_In. vm_compute. reflexivity. Qed.

(** C144.  For every accepted command line and every choice of function, multiplier and errors: when
    the interface creates an optimizer, it optimizes the function class whose name is the given one in
    lower case, noisy exactly when a positive error is given (and then with these errors, both
    non-negative), enlarged exactly when the multiplier is larger than one; the target is the optimum
    value declared by the class and every other parameter is as requested. *)
Theorem C144_what_is_optimized : forall conv os opts t x st,
  parse conv (initial_options defaults) os = Some opts -> test_main t opts = TOk (x, st) ->
  exists b, In b all_benchmarks /\ b_name b = lower (to_name t) /\ function_of x = b /\
  (wants_noise t <-> noisy_with x (to_rel t) (to_abs t)) /\
  (~ wants_noise t -> forall r a, ~ noisy_with x r a) /\
  (wants_noise t -> 0 <= to_rel t /\ 0 <= to_abs t) /\
  (wants_copies t <-> without_noise x = EnlargedBox b (to_mult t)) /\
  (~ wants_copies t <-> without_noise x = PlainBox b) /\
  lookup "target_objval" st = Some (PNum (b_val b)) /\
  (forall k v, parameter k -> k <> "target_objval" -> (lookup k st = Some v <-> requested conv os k v)) /\
  (forall k v, lookup k st = Some v -> parameter k).
Proof.
  intros conv os opts t x st HP HM. unfold test_main in HM.
  destruct (build_box t) as [y|e] eqn:BB; [|discriminate].
  destruct (from_dictionary _) as [st'|e] eqn:FD; [|discriminate].
  assert (E : y = x /\ st' = st) by (split; congruence). destruct E as [-> ->]. clear HM.
  destruct (build_box_spec t x BB) as (b & C & F & N1 & N2 & N3 & M1 & M2). exists b.
  destruct (test_class_some _ _ C) as [I Nm]. rewrite F in FD.
  destruct (parse_spec _ _ _ _ (keys_initial defaults) HP) as (K & _).
  assert (T : In "target_objval" (keys opts)) by (rewrite K; apply parameter_iff, target_parameter).
  destruct (proj2 (from_dictionary_valid _) st FD) as (V1 & V2).
  repeat (split; [assumption|]). split; [|split; [|exact V2]].
  - apply (V1 _ _ target_parameter). rewrite (effective_target _ _ _ _ T). reflexivity.
  - intros k v PK NT. rewrite (V1 k v PK), (effective_target _ _ _ _ T).
    rewrite (proj2 (String.eqb_neq _ _) NT), <- (parse_requested conv os opts k v HP PK). unfold effective.
    split; [|auto]. intros [H|[H _]]; [exact H|exfalso].
    apply (proj1 (parameter_iff k)) in PK. rewrite <- K in PK. apply lookup_keys in PK. destruct PK as [w E]. congruence.
Qed.
Print Assumptions C144_what_is_optimized.

(** An optimizer is created exactly when the name is known, no error is negative while the other is
    positive, and the other settings are valid.  Two negative errors and a multiplier below one are
    accepted and have no effect. *)
Theorem C144_accepted_iff : forall conv os opts t,
  parse conv (initial_options defaults) os = Some opts ->
  ((exists x st, test_main t opts = TOk (x, st)) <->
   (exists b, In b all_benchmarks /\ b_name b = lower (to_name t)) /\
   (wants_noise t -> 0 <= to_rel t /\ 0 <= to_abs t) /\ valid_args opts).
Proof.
  intros conv os opts t HP.
  destruct (parse_spec _ _ _ _ (keys_initial defaults) HP) as (K & _).
  assert (T : In "target_objval" (keys opts)) by (rewrite K; apply parameter_iff, target_parameter).
  unfold test_main. split.
  - intros (x & st & HM). destruct (build_box t) as [y|e] eqn:BB; [|discriminate].
    destruct (from_dictionary _) as [st'|e] eqn:FD; [|discriminate].
    destruct (build_box_spec t y BB) as (b & C & F & N1 & N2 & N3 & M1 & M2).
    split; [exists b; exact (test_class_some _ _ C)|]. split; [exact N3|].
    apply (valid_target (PNum (b_val (function_of y))) opts T), (from_dictionary_valid _). eauto.
  - intros ((b & I & E) & N & V).
    assert (BB : exists y, build_box t = TOk y).
    { unfold build_box. destruct (test_class (to_name t)) as [c|] eqn:C;
        [|exfalso; apply (proj1 (test_class_none _) C); eauto].
      destruct (negb (Qle_bool (to_rel t) 0) || negb (Qle_bool (to_abs t) 0)) eqn:W; [|eauto].
      assert (W' : wants_noise t) by (unfold wants_noise; rewrite orb_true_iff, !positive_bool in W; exact W).
      destruct (N W') as [P1 P2]. apply Qle_bool_iff in P1, P2. rewrite P1, P2. cbn [andb]. eauto. }
    destruct BB as [y ->].
    apply (valid_target (PNum (b_val (function_of y))) opts T), (from_dictionary_valid _) in V.
    destruct V as [st V]. rewrite V. eauto.
Qed.
Print Assumptions C144_accepted_iff.

(** The option --target_objval of this interface has no effect. *)
Theorem C144_target_option_ignored : forall t opts v,
  test_main t (update "target_objval" v opts) = test_main t opts.
Proof.
  intros t opts v. unfold test_main. destruct (build_box t) as [x|e]; [|reflexivity].
  assert (U : forall a b d, update "target_objval" a (update "target_objval" b d) = update "target_objval" a d).
  { intros a b d. induction d as [|[k w] r IH]; [reflexivity|]. cbn [update].
    destruct (String.eqb "target_objval" k) eqn:E; cbn [update]; rewrite E; [reflexivity|now rewrite IH]. }
  now rewrite U.
Qed.
Print Assumptions C144_target_option_ignored.

(** For the 33 benchmark functions with an exact declared optimum, the target handed to the optimizer
    is the global minimum. *)
Theorem C144_target_is_minimum : forall t opts x st v, test_main t opts = TOk (x, st) ->
  In (function_of x) exact_benchmarks -> In "target_objval" (keys opts) ->
  lookup "target_objval" st = Some (PNum v) -> is_minimum (function_of x) (Rdefinitions.Q2R v).
Proof.
  intros t opts x st v HM HI T L. unfold test_main in HM.
  destruct (build_box t) as [y|e] eqn:BB; [|discriminate].
  destruct (from_dictionary _) as [st'|e] eqn:FD; [|discriminate].
  assert (E : y = x /\ st' = st) by (split; congruence). destruct E as [-> ->].
  destruct (proj2 (from_dictionary_valid _) st FD) as (V1 & _).
  apply (V1 _ _ target_parameter), (effective_target _ _ _ _ T) in L. cbn [String.eqb Ascii.eqb Bool.eqb] in L.
  replace v with (b_val (function_of x)) by congruence.
  exact (proj1 (C139_declared_optimum_is_minimum _ HI)).
Qed.
Print Assumptions C144_target_is_minimum.

(** The case: "Gear4" in capitals, noise and two copies, with the target option given. *)
Definition c144_options : test_options := mkTestOptions "Gear4" 2 (1#10) 0.
Definition c144_line : given_options := ("target_objval", "7") :: c84_line.
Definition c144_dict : dict := match parse c84_conv (initial_options defaults) c144_line with Some o => o | None => [] end.
Lemma c144_parse : parse c84_conv (initial_options defaults) c144_line = Some c144_dict.
Proof. vm_compute. reflexivity. Qed.
Lemma c144_valid : valid_args c144_dict.
Proof.
  apply construct_valid. exists (match construct c144_dict with SOk d => d | SFail _ => [] end). vm_compute. reflexivity.
Qed.
Lemma c144_class : test_class "Gear4" = Some gear4.
Proof. reflexivity. Qed.
Example C144_case : exists x st, test_main c144_options c144_dict = TOk (x, st) /\
  function_of x = gear4 /\ noisy_with x (1#10) 0 /\ without_noise x = EnlargedBox gear4 2 /\
  lookup "target_objval" st = Some (PNum (16434284739#10000000000)) /\
  lookup "max_evaluations" st = Some (PNum 9).
Proof.
  assert (A : exists x st, test_main c144_options c144_dict = TOk (x, st)).
  { apply (C144_accepted_iff _ _ _ _ c144_parse).
    split; [exists gear4; exact (test_class_some _ _ c144_class)|]. split; [intros _; split; cbn; lra|exact c144_valid]. }
  destruct A as (x & st & M). exists x, st. split; [exact M|].
  assert (G : function_of x = gear4).
  { unfold test_main in M. destruct (build_box c144_options) as [y|] eqn:BB; [|discriminate].
    destruct (build_box_spec _ _ BB) as (b' & C & F' & _). change (to_name c144_options) with "Gear4" in C.
    rewrite c144_class in C. destruct (from_dictionary _); [|discriminate]. congruence. }
  destruct (C144_what_is_optimized _ _ _ _ _ _ c144_parse M) as (b & I & N & F & W & _ & _ & Co & _ & T & R & _).
  rewrite G in F. rewrite <- F in *. split; [exact G|]. split; [apply W; left; reflexivity|].
  split; [apply Co; reflexivity|]. split; [exact T|].
  apply R; [apply parameter_keys, mem_In; vm_compute; reflexivity|discriminate|].
  left. exists "9", KInt. split.
  - exists [("target_objval", "7"); ("max_evaluations", "7"); ("rbf", "cubic")], []. split; [reflexivity|intros []].
  - split; [right; left; reflexivity|reflexivity].
Qed.
Example C144_rejected_case : forall opts,
  test_main (mkTestOptions "nowhere" 1 0 0) opts = TFail TUnknown /\
  test_main (mkTestOptions "branin" 1 (1#10) (-1)) opts = TFail TAssert.
Proof. intros. split; reflexivity. Qed.

(** What "in lower case" means: each letter of the first alphabet becomes the letter of the second at the same place, every
    other character stays. *)
Definition capitals : string := "ABCDEFGHIJKLMNOPQRSTUVWXYZ".
Definition smalls : string := "abcdefghijklmnopqrstuvwxyz".
Theorem C144_letter_case : forall s i, 
  match String.get i s with
  | None => String.get i (lower s) = None
  | Some c => exists c', String.get i (lower s) = Some c' /\
      ((exists k, String.get k capitals = Some c /\ String.get k smalls = Some c') \/
       ((forall k, String.get k capitals <> Some c) /\ c' = c))
  end.
Proof.
  induction s as [|c s IH]; intros [|i]; cbn [String.get lower]; try reflexivity; [|apply IH].
  exists (lower_ascii c). split; [reflexivity|].
  assert (D : existsb (fun k => match String.get k capitals with Some a => Ascii.eqb a c | None => false end) (seq 0 26) = true \/
              existsb (fun k => match String.get k capitals with Some a => Ascii.eqb a c | None => false end) (seq 0 26) = false)
    by (destruct (existsb _ _); auto).
  destruct D as [D|D].
  - left. apply existsb_exists in D. destruct D as (k & Hk & E). apply in_seq in Hk. exists k.
    destruct (String.get k capitals) as [a|] eqn:G; [|discriminate]. apply Ascii.eqb_eq in E. subst a. split; [reflexivity|].
    do 26 (destruct k as [|k]; [cbn in G |- *; injection G as <-; reflexivity|]). lia.
  - right. split.
    + intros k G. assert (Hk : (k < 26)%nat).
      { do 26 (destruct k as [|k]; [lia|]). cbn in G. destruct k; discriminate. }
      assert (X : existsb (fun k => match String.get k capitals with Some a => Ascii.eqb a c | None => false end) (seq 0 26) = true).
      { apply existsb_exists. exists k. split; [apply in_seq; lia|]. rewrite G. apply Ascii.eqb_refl. }
      congruence.
    + destruct c as [[] [] [] [] [] [] [] []]; first [reflexivity|vm_compute in D; discriminate].
Qed.
Print Assumptions C144_letter_case.
Example C144_letter_case_example : lower "Branin_Cat" = "branin_cat" /\ lower "AZaz_09" = "azaz_09".
Proof. split; reflexivity. Qed.
