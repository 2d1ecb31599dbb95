(** * Settings: from the lemmas to the specification vocabulary. *)
From Verif Require Export SpecSettings.
From Verif Require Import SettingsProofs BaseLemmas AlgFrame AlgTerm.
From Coq Require Import Lia Lqa.
Open Scope string_scope.
Open Scope Q_scope.

Definition pyval_eqb (a b : pyval) : bool :=
  match a, b with
  | PNum p, PNum q => (Qnum p =? Qnum q)%Z && (Qden p =? Qden q)%positive
  | PStr s, PStr t => String.eqb s t
  | PBool x, PBool y => Bool.eqb x y
  | _, _ => false
  end.
Lemma pyval_eqb_eq a b : pyval_eqb a b = true -> a = b.
Proof.
  destruct a as [[p q]|s|x], b as [[p' q']|t|y]; cbn; try discriminate.
  - intros H. apply andb_true_iff in H. destruct H as [A B].
    apply Z.eqb_eq in A. apply Pos.eqb_eq in B. subst; reflexivity.
  - intros H. apply String.eqb_eq in H. congruence.
  - intros H. apply Bool.eqb_prop in H. congruence.
Qed.
Definition opt_eqb (a b : option pyval) : bool :=
  match a, b with Some x, Some y => pyval_eqb x y | None, None => true | _, _ => false end.
Lemma doc_lookup_all : forallb (fun kv => opt_eqb (lookup (fst kv) defaults) (Some (snd kv))) documented_defaults = true.
Proof. vm_compute. reflexivity. Qed.
Lemma doc_keys_all : forallb (fun k => mem k (map fst documented_defaults)) (keys defaults) = true.
Proof. vm_compute. reflexivity. Qed.
Lemma doc_lookup k v : In (k, v) documented_defaults -> lookup k defaults = Some v.
Proof.
  intros H. pose proof (proj1 (forallb_forall _ _) doc_lookup_all _ H) as B. cbn [fst snd] in B.
  destruct (lookup k defaults) as [x|]; cbn [opt_eqb] in B; [|discriminate].
  apply pyval_eqb_eq in B. congruence.
Qed.
Lemma parameter_keys k : parameter k <-> In k (keys defaults).
Proof.
  unfold parameter. split; intros H.
  - apply in_map_iff in H. destruct H as ([k' v] & <- & Hin). cbn [fst].
    apply lookup_keys. exists v. apply doc_lookup. exact Hin.
  - apply mem_In. exact (proj1 (forallb_forall _ _) doc_keys_all _ H).
Qed.
Lemma lookup_doc k v : lookup k defaults = Some v -> In (k, v) documented_defaults.
Proof.
  intros H. assert (P : parameter k) by (apply parameter_keys; apply lookup_keys; eauto).
  unfold parameter in P. apply in_map_iff in P. destruct P as ([k' w] & <- & Hin). cbn [fst] in *.
  rewrite (doc_lookup _ _ Hin) in H. congruence.
Qed.
Lemma effective_given args k v : effective args k v <-> given k args = Some v.
Proof.
  unfold effective, given. destruct (lookup k args) as [w|].
  - split; [intros [H|[H _]]; congruence|auto].
  - split; [intros [H|[_ H]]; [discriminate|apply doc_lookup; exact H]|].
    intros H. right. split; [reflexivity|apply lookup_doc; exact H].
Qed.
Lemma choice_allowed o s : choice o s <-> exists vs, In (o, vs) allowed /\ In s vs.
Proof.
  unfold choice, allowed. cbn [In]. split.
  - intros H. repeat (destruct H as [H|H]); destruct H as [-> H];
      (eexists; split; [eauto 10|cbn [In]; intuition congruence]).
  - intros (vs & H & Hs).
    repeat (destruct H as [H|H]; [injection H as <- <-; cbn [In] in Hs; intuition congruence|]). destruct H.
Qed.
Lemma allowed_functional o vs vs' : In (o, vs) allowed -> In (o, vs') allowed -> vs = vs'.
Proof.
  unfold allowed. cbn [In]. intros H H'.
  repeat (destruct H as [H|H]; [injection H as <- <-;
     repeat (destruct H' as [H'|H']; [try discriminate H'; injection H' as <-; reflexivity|]); destruct H'|]).
  destruct H.
Qed.
Lemma nonneg_spec_all :
  forallb (fun kv => match snd kv with PNum _ => mem (fst kv) unchecked_numbers || mem (fst kv) nonnegative_parameters
                     | _ => true end) documented_defaults = true.
Proof. vm_compute. reflexivity. Qed.
Lemma nonneg_spec_all2 :
  forallb (fun k => negb (mem k unchecked_numbers) &&
     match lookup k documented_defaults with Some (PNum _) => true | _ => false end) nonnegative_parameters = true.
Proof. vm_compute. reflexivity. Qed.
Lemma lookup_In k d v : lookup k d = Some v -> In (k, v) d.
Proof.
  induction d as [|[a w] r IH]; cbn [lookup]; [discriminate|].
  destruct (String.eqb_spec k a) as [->|]; [intros H; injection H as ->; left; reflexivity|right; auto].
Qed.
Lemma must_nonneg k : must_be_nonnegative k <-> In k nonnegative_parameters.
Proof.
  split.
  - intros [(q & Hq) Hn]. pose proof (proj1 (forallb_forall _ _) nonneg_spec_all _ Hq) as B. cbn [fst snd] in B.
    apply orb_true_iff in B. destruct B as [B|B]; apply mem_In in B; [contradiction|exact B].
  - intros H. pose proof (proj1 (forallb_forall _ _) nonneg_spec_all2 _ H) as B. cbn beta in B.
    apply andb_true_iff in B. destruct B as [B1 B2]. split.
    + destruct (lookup k documented_defaults) as [[q|s|b]|] eqn:E; try discriminate. exists q. apply lookup_In. exact E.
    + intros Hin. apply mem_In in Hin. rewrite Hin in B1. discriminate.
Qed.

Lemma In_keys k (d : dict) : In k (keys d) <-> exists v, In (k, v) d.
Proof.
  unfold keys. rewrite in_map_iff. split.
  - intros ([k' v] & <- & H). eauto.
  - intros (v & H). exists (k, v). auto.
Qed.
Lemma construct_valid args : valid_args args <-> exists d, construct args = SOk d.
Proof.
  split.
  - intros (A & B & D). exists (assign args). apply construct_ok. split; [|split; [|split; [|reflexivity]]].
    + intros k Hk. apply In_keys in Hk. destruct Hk as [v Hk]. apply parameter_keys. eauto.
    + intros o vs Ho.
      assert (E : enumerated o).
      { destruct vs as [|v vs]; [exfalso; unfold allowed in Ho; cbn [In] in Ho; intuition discriminate|].
        exists v. apply choice_allowed. exists (v :: vs). split; [exact Ho|left; reflexivity]. }
      destruct (B o E) as (s & Hs & Hc). exists s. split; [apply effective_given; exact Hs|].
      apply choice_allowed in Hc. destruct Hc as (vs' & Hvs & Hin).
      rewrite (allowed_functional _ _ _ Ho Hvs). exact Hin.
    + intros p Hp. destruct (D p (proj2 (must_nonneg p) Hp)) as (v & Hv & Hn). apply effective_given in Hv.
      destruct v as [q|s|b]; cbn [nonnegative] in Hn; [left; eauto|destruct Hn|right; eauto].
  - intros [d H]. apply construct_ok in H. destruct H as (A & B & D & _). split; [|split].
    + intros k v Hk. apply parameter_keys. apply A. apply In_keys. eauto.
    + intros o (v & Hv). apply choice_allowed in Hv. destruct Hv as (vs & Ho & _).
      destruct (B o vs Ho) as (s & Hs & Hin). exists s. split; [apply effective_given; exact Hs|].
      apply choice_allowed. eauto.
    + intros k Hk. apply must_nonneg in Hk. destruct (D k Hk) as [(q & Hq & Hle)|(b & Hb)].
      * exists (PNum q). split; [apply effective_given; exact Hq|exact Hle].
      * exists (PBool b). split; [apply effective_given; exact Hb|exact Logic.I].
Qed.
Lemma construct_error args : valid_args args \/ construct args = SFail SValue \/ construct args = SFail SType.
Proof.
  destruct (construct args) as [d|e] eqn:E; [left; apply construct_valid; eauto|right].
  unfold construct in E. destruct (forallb _ (keys args)); [|injection E as <-; auto].
  unfold validate in E. destruct (forallb _ allowed); [|injection E as <-; auto].
  revert E. generalize nonnegative_parameters. intros ps. induction ps as [|p ps IH]; cbn [check_nonnegative]; [discriminate|].
  destruct (lookup p (assign args)) as [[q|s|b]|]; [destruct (Qltb q 0)| | |]; try exact IH;
    intros H; injection H as <-; auto.
Qed.
Lemma construct_effective args d : construct args = SOk d ->
  (forall k v, parameter k -> (lookup k d = Some v <-> effective args k v)) /\
  (forall k v, lookup k d = Some v -> parameter k).
Proof.
  intros H. split.
  - intros k v Hk. rewrite effective_given. rewrite (construct_values _ _ k H) by (apply parameter_keys; exact Hk). tauto.
  - intros k v Hl. apply parameter_keys. apply construct_ok in H. destruct H as (_ & _ & _ & ->).
    rewrite <- (keys_assign args). apply lookup_keys. eauto.
Qed.
Lemma from_dictionary_valid args :
  ((exists d, from_dictionary args = SOk d) <-> valid_args args) /\
  (forall d, from_dictionary args = SOk d -> 
     (forall k v, parameter k -> (lookup k d = Some v <-> effective args k v)) /\
     (forall k v, lookup k d = Some v -> parameter k)).
Proof.
  split.
  - rewrite construct_valid. split; intros [d H]; exists d; apply from_dictionary_ok; exact H.
  - intros d H. apply from_dictionary_ok in H. apply construct_effective. exact H.
Qed.
Lemma from_dictionary_unknown args k v : In (k, v) args -> ~ parameter k -> from_dictionary args = SFail SValue.
Proof.
  intros Hin Hp. unfold from_dictionary. rewrite construct_default, keys_assign.
  destruct (forallb (fun k => mem k (keys defaults)) (keys args)) eqn:K; [|reflexivity].
  exfalso. apply Hp. apply parameter_keys. rewrite forallb_forall in K. apply mem_In. apply K. apply In_keys. eauto.
Qed.

(** A settings object built by the constructor has all parameters. *)
Lemma auto_spec args d n lo up ints d' : construct args = SOk d -> set_auto_parameters n lo up ints d = SOk d' ->
  (forall k, ~ left_to_program d k -> lookup k d' = lookup k d) /\
  (forall k, enumerated k -> lookup k d' <> Some (PStr "auto")) /\
  (forall f cpus, lookup "init_sample_fraction" d = Some (PNum f) -> lookup "num_cpus" d = Some (PNum cpus) ->
     exists f', lookup "init_sample_fraction" d' = Some (PNum f') /\ 0 <= f').
Proof.
  intros Hc H. split; [|split].
  - intros k Hk. destruct (String.string_dec k "init_sample_fraction") as [->|Hne].
    + destruct (set_auto_lookup _ _ _ _ _ _ H) as (_ & _ & _ & _ & _ & F & _). rewrite F.
      destruct (lookup "init_sample_fraction" d) as [[f|s|b]|] eqn:E; try reflexivity.
      destruct (lookup "num_cpus" d) as [[c|s|b]|]; try reflexivity.
      destruct (Qltb f 0) eqn:B; [|reflexivity]. exfalso. apply Hk. right. split; [reflexivity|].
      exists f. split; [exact E|apply Qltb_lt; exact B].
    + apply (set_auto_keeps _ _ _ _ _ _ _ H Hne). destruct (is_str k "auto" d) eqn:B; [|reflexivity].
      exfalso. apply Hk. left. apply is_str_iff. exact B.
  - destruct (set_auto_resolved _ _ _ _ _ _ H) as (A & B & D & E).
    assert (G : forall k, is_str k "auto" d' = false -> lookup k d' <> Some (PStr "auto")).
    { intros k Hk Hl. apply is_str_iff in Hl. congruence. }
    assert (Z : forall k vs, In (k, vs) allowed -> ~ In "auto" vs -> ~ In k auto_keys -> lookup k d' <> Some (PStr "auto")).
    { intros k vs Hin Ha Hk Hl. destruct (set_auto_lookup _ _ _ _ _ _ H) as (O & _). rewrite (O k Hk) in Hl.
      rewrite (construct_values _ _ k Hc) in Hl by (apply (allowed_keys (k, vs)); exact Hin).
      apply construct_ok in Hc. destruct Hc as (_ & Hc & _). destruct (Hc k vs Hin) as (s & Hs & Hsv). congruence. }
    intros k (v & Hv). apply choice_allowed in Hv. destruct Hv as (vs & Hin & _).
    pose proof (Z k vs Hin) as Zk. unfold allowed in Hin. cbn [In] in Hin.
    repeat (destruct Hin as [Hin|Hin]; [injection Hin as <- <-;
      first [apply G; assumption | apply Zk; cbn [In auto_keys]; unfold auto_keys; cbn [In]; intuition discriminate]|]).
    destruct Hin.
  - intros f cpus Hf Hcp. apply (set_auto_fraction _ _ _ _ _ _ _ _ H Hf Hcp).
Qed.
Lemma auto_values n lo up ints d d' : set_auto_parameters n lo up ints d = SOk d' ->
  (lookup "rbf" d = Some (PStr "auto") -> lookup "rbf" d' = Some (PStr "thin_plate_spline")) /\
  (lookup "function_scaling" d = Some (PStr "auto") -> lookup "function_scaling" d' = Some (PStr "off")) /\
  (lookup "dynamism_clipping" d = Some (PStr "auto") -> lookup "dynamism_clipping" d' = Some (PStr "median")) /\
  (forall f cpus, lookup "init_sample_fraction" d = Some (PNum f) -> f < 0 ->
     lookup "num_cpus" d = Some (PNum cpus) ->
     exists f', lookup "init_sample_fraction" d' = Some (PNum f') /\
       (cpus <= 2 -> (n <= 20)%nat -> f' = 1#2) /\ (cpus <= 2 -> (20 < n)%nat -> f' = 2#5) /\
       (2 < cpus -> (n <= 20)%nat -> f' = 1) /\ (2 < cpus -> (20 < n <= 50)%nat -> f' = 3#4) /\
       (2 < cpus -> (50 < n)%nat -> f' = 1#2)).
Proof.
  intros H. destruct (set_auto_lookup _ _ _ _ _ _ H) as (_ & A & B & D & _ & F & _).
  split; [intros E; apply is_str_iff in E; rewrite E in A; exact A|].
  split; [intros E; apply is_str_iff in E; rewrite E in B; exact B|].
  split; [intros E; apply is_str_iff in E; rewrite E in D; exact D|].
  intros f cpus Hf Hneg Hc. rewrite Hf, Hc in F. apply Qltb_lt in Hneg. rewrite Hneg in F.
  eexists. split; [exact F|]. unfold auto_frac.
  destruct (Qle_bool cpus 2) eqn:E.
  - apply Qle_bool_iff in E. destruct (Nat.leb_spec n 20); repeat split; intros; try lra; try lia; reflexivity.
  - assert (2 < cpus) by (apply Qnot_le_lt; intros X; apply Qle_bool_iff in X; congruence).
    destruct (Nat.leb_spec n 20); [repeat split; intros; try lra; try lia; reflexivity|].
    destruct (Nat.leb_spec n 50); repeat split; intros; try lra; try lia; reflexivity.
Qed.
Lemma auto_domain_range n lo up ints d d' :
  set_auto_parameters n lo up ints d = SOk d' -> lookup "domain_scaling" d = Some (PStr "auto") ->
  (forall j, (j < n)%nat -> 0 <= range lo up j) ->
  (lookup "domain_scaling" d' = Some (PStr "affine") <->
   ints = [] /\ exists i j, (i < n)%nat /\ (j < n)%nat /\ 5 * range lo up i <= range lo up j) /\
  (lookup "domain_scaling" d' = Some (PStr "affine") \/ lookup "domain_scaling" d' = Some (PStr "off")).
Proof.
  intros H Hd Hb. split.
  - apply (auto_domain_choice _ _ _ _ _ _ H Hd). intros j Hj. specialize (Hb j Hj). unfold range in Hb. lra.
  - destruct (set_auto_lookup _ _ _ _ _ _ H) as (_ & _ & _ & _ & E & _). apply is_str_iff in Hd. rewrite Hd in E.
    rewrite E. destruct ints; [destruct (Qle_bool _ _)|]; auto.
Qed.
Lemma auto_total n lo up ints d : length lo = n -> length up = n -> (forall j, In j ints -> (j < n)%nat) ->
  ((exists d', set_auto_parameters n lo up ints d = SOk d') <->
   ~ (n = 0%nat /\ lookup "domain_scaling" d = Some (PStr "auto"))).
Proof.
  intros L1 L2 Hi. split.
  - intros [d' H] [-> Hd]. apply is_str_iff in Hd.
    destruct lo; [|discriminate]. destruct up; [|discriminate].
    destruct ints as [|j r]; [|specialize (Hi j (or_introl eq_refl)); lia].
    rewrite (set_auto_all_fixed _ Hd) in H. discriminate.
  - intros H. apply set_auto_defined; auto. destruct (is_str "domain_scaling" "auto" d) eqn:E; [|auto].
    left. intros ->. apply H. split; [reflexivity|apply is_str_iff; exact E].
Qed.

(** save_state_interval = 0 *)
Lemma end_zero c s : (save_state_interval c = 0)%Z -> end_of_pass c s = Fail EZeroDiv.
Proof. intros H. unfold end_of_pass. rewrite H. reflexivity. Qed.
Lemma conclude_zero c i s prop l s' l' : (save_state_interval c = 0)%Z -> conclude c i s prop l <> Cont s' l'.
Proof.
  intros H. unfold conclude.
  destruct (match option_map (fun p => clip p (l_lower c) (l_upper c)) prop with
    | None => Ok true
    | Some p => match node_pos (T s) with [] => Fail EAssert | _ => Ok (near (min_dist c) p (node_pos (T s))) end end) as [[]|].
  - rewrite end_zero by exact H. discriminate.
  - destruct (option_map _ prop) as [p|].
    + unfold bind. destruct (evaluate c i p (to_orig c p) s l) as [sl|]; [|discriminate].
      destruct (after_eval c i (fst sl)) as [s2|]; [|discriminate]. rewrite end_zero by exact H. discriminate.
    + rewrite end_zero by exact H. discriminate.
  - discriminate.
Qed.
Lemma pass_zero c i s l s' l' : (save_state_interval c = 0)%Z -> pass c i s l = Cont s' l' ->
  itercount (C s') = itercount (C s).
Proof.
  intros Hz H. unfold pass in H.
  destruct (negb (loop_cond c s l (i_clock_ok i))); [discriminate|].
  destruct (skip_step c (C s)).
  { injection H as <- <-. apply advance_iter. }
  destruct (if must_restart c (C s) then restart c i s else Ok s) as [s1|] eqn:E1; [|discriminate].
  assert (H1 : itercount (C s1) = itercount (C s)).
  { destruct (must_restart c (C s)); [apply restart_counts in E1; lia|injection E1 as <-; reflexivity]. }
  destruct (prepare c i s1) as [s2|s2|e] eqn:E2; [| |discriminate].
  2: { injection H as <- <-. assert (Q : prep_state (prepare c i s1) = Some s2) by (rewrite E2; reflexivity).
       apply prepare_iter in Q. lia. }
  assert (H2 : itercount (C s2) = itercount (C s1)).
  { assert (Q : prep_state (prepare c i s1) = Some s2) by (rewrite E2; reflexivity). apply prepare_iter in Q. lia. }
  destruct (negb (search_guard c _)); [discriminate|].
  set (s3 := emit _ s2) in *. assert (H3 : itercount (C s3) = itercount (C s2)) by reflexivity. clearbody s3.
  destruct (search c i s3) as [s4 prop|s4|e] eqn:Es; [| |discriminate].
  - exfalso. exact (conclude_zero _ _ _ _ _ _ _ Hz H).
  - injection H as <- <-. unfold search in Es. cbv zeta in Es.
    destruct (current_step (C s3) =? restoration_step c)%Z.
    + destruct (restoration_search c i s3) as [[[p r]|]|]; [destruct (remove_node r s3)| |]; try discriminate.
      destruct (_ && _).
      * injection Es as <-. pose proof (advance_iter c s3) as W2. unfold advance_st in W2. cbn in W2. cbn. lia.
      * destruct (restart c i s3) as [s5|] eqn:E5; [|discriminate]. injection Es as <-.
        apply restart_counts in E5. lia.
    + destruct (current_step (C s3) =? local_search_step c)%Z; [|discriminate].
      destruct (local_result c i s3); [|discriminate].
      destruct (nth_error _ _); [|discriminate]. destruct (remove_node _ _); discriminate.
Qed.

Lemma auto_heap n lo up ints heap self heap' r : auto_on_heap n lo up ints heap self = SOk (heap', r) ->
  r <> self /\ (forall j, (j < List.length heap)%nat -> nth_error heap' j = nth_error heap j) /\
  exists d d', nth_error heap self = Some d /\ nth_error heap' r = Some d' /\ set_auto_parameters n lo up ints d = SOk d'.
Proof.
  unfold auto_on_heap. destruct (nth_error heap self) as [d|] eqn:E; [|discriminate].
  destruct (set_auto_parameters n lo up ints d) as [d'|e] eqn:E'; [|discriminate].
  intros H. injection H as <- <-.
  assert (L : (self < List.length heap)%nat) by (apply nth_error_Some; congruence).
  split; [lia|]. split.
  - intros j Hj. apply nth_error_app1. exact Hj.
  - exists d, d'. split; [reflexivity|]. split; [|exact E'].
    rewrite nth_error_app2 by lia. rewrite Nat.sub_diag. reflexivity.
Qed.
