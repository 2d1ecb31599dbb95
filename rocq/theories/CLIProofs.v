(** * Proofs about the command line *)
From Verif Require Import BaseLemmas SettingsProofs SettingsGlue.
From Verif Require Export SpecCLI.
Open Scope string_scope.
Open Scope Q_scope.

Lemma kind_of_In k t l : kind_of k l = Some t -> In (k, t) l.
Proof.
  induction l as [|[a b] r IH]; cbn [kind_of]; [discriminate|]. destruct (String.eqb k a) eqn:E.
  - apply String.eqb_eq in E. subst. intros [= ->]. now left.
  - intros H. right. auto.
Qed.
Lemma kind_of_none k l : kind_of k l = None <-> ~ In k (map fst l).
Proof.
  induction l as [|[a b] r IH]; cbn [kind_of map In fst]; [tauto|]. destruct (String.eqb k a) eqn:E.
  - apply String.eqb_eq in E. subst. split; [discriminate|tauto].
  - apply String.eqb_neq in E. rewrite IH. split; [intros H [X|X]; [congruence|tauto]|tauto].
Qed.
Lemma nodup_kind k t l : NoDup (map fst l) -> In (k, t) l -> kind_of k l = Some t.
Proof.
  induction l as [|[a b] r IH]; cbn [kind_of map In fst]; intros N H; [destruct H|]. inversion N; subst.
  destruct H as [[= -> ->]|H]; [now rewrite String.eqb_refl|].
  destruct (String.eqb k a) eqn:E; [|auto]. apply String.eqb_eq in E. subst. exfalso. apply H2. apply in_map_iff. exists (a, t). auto.
Qed.
Fixpoint nodupb (l : list string) : bool :=
  match l with [] => true | x :: r => negb (mem x r) && nodupb r end.
Lemma nodupb_spec l : nodupb l = true -> NoDup l.
Proof.
  induction l as [|x r IH]; cbn [nodupb]; [constructor|]. rewrite andb_true_iff, negb_true_iff. intros [A B].
  constructor; [|auto]. intros H. apply mem_In in H. congruence.
Qed.
Lemma registered_nodup : NoDup (map fst registered).
Proof. apply nodupb_spec. vm_compute. reflexivity. Qed.
Lemma registered_unique k t t' : In (k, t) registered -> In (k, t') registered -> t = t'.
Proof. intros A B. apply (nodup_kind _ _ _ registered_nodup) in A, B. congruence. Qed.
Lemma registered_parameters : forallb (fun k => mem k (map fst documented_defaults)) (map fst registered) = true.
Proof. vm_compute. reflexivity. Qed.
Lemma parameters_registered : forallb (fun k => mem k (map fst registered)) (map fst documented_defaults) = true.
Proof. vm_compute. reflexivity. Qed.
Lemma parameter_iff k : parameter k <-> In k (map fst registered).
Proof.
  unfold parameter. split; intros H.
  - apply mem_In. exact (proj1 (forallb_forall _ _) parameters_registered k H).
  - apply mem_In. exact (proj1 (forallb_forall _ _) registered_parameters k H).
Qed.

(** ** Parsing *)
Lemma keys_initial d0 : keys (initial_options d0) = map fst registered.
Proof. unfold keys, initial_options. rewrite map_map. apply map_ext. reflexivity. Qed.
Lemma lookup_initial_gen d0 k (l : list (string * kind)) : In k (map fst l) ->
  lookup k (map (fun kt => (fst kt, match lookup (fst kt) d0 with Some v => v | None => PStr "" end)) l) =
  Some (match lookup k d0 with Some v => v | None => PStr "" end).
Proof.
  induction l as [|[a b] r IH]; cbn [map In fst lookup]; [intros []|]. intros H.
  destruct (String.eqb k a) eqn:E; [apply String.eqb_eq in E; now subst|].
  apply String.eqb_neq in E. destruct H as [H|H]; [congruence|auto].
Qed.
Lemma lookup_initial k : parameter k -> exists v, In (k, v) documented_defaults /\ lookup k (initial_options defaults) = Some v.
Proof.
  intros H. pose proof (proj1 (parameter_iff k) H) as R. unfold parameter in H. apply in_map_iff in H. destruct H as ([a v] & E & HI). cbn in E. subst a.
  exists v. split; [exact HI|]. unfold initial_options. rewrite lookup_initial_gen by exact R. now rewrite (doc_lookup _ _ HI).
Qed.

Lemma last_given_cons_other os k t a : last_given os k t -> last_given (a :: os) k t.
Proof. intros (x & y & -> & N). exists (a :: x), y. auto. Qed.
Lemma last_given_dec os k : never_given os k \/ exists t, last_given os k t.
Proof.
  induction os as [|[a t] r IH]; [left; intros []|].
  destruct IH as [N|[x L]]; [|right; exists x; now apply last_given_cons_other].
  destruct (string_dec a k) as [->|E].
  - right. exists t, [], r. auto.
  - left. intros [H|H]; [cbn in H; congruence|contradiction].
Qed.
Lemma last_given_fun os k t t' : last_given os k t -> last_given os k t' -> t = t'.
Proof.
  intros (a & b & -> & N) (a' & b' & E & N'). revert a' E. induction a as [|x a IH]; intros [|y a'] E; cbn in E.
  - congruence.
  - injection E as <- E. exfalso. apply N. rewrite E, map_app. apply in_or_app. right. now left.
  - injection E as -> E. exfalso. apply N'. rewrite <- E, map_app. apply in_or_app. right. now left.
  - injection E as -> E. eauto.
Qed.
Lemma never_last os k t : never_given os k -> last_given os k t -> False.
Proof. intros N (a & b & -> & _). apply N. rewrite map_app. apply in_or_app. right. now left. Qed.

Lemma parse_spec conv : forall os d d', keys d = map fst registered -> parse conv d os = Some d' ->
  keys d' = map fst registered /\
  forall k, (never_given os k -> lookup k d' = lookup k d) /\
            (forall t, last_given os k t -> exists kd v, In (k, kd) registered /\ conv kd t = Some v /\ lookup k d' = Some v).
Proof.
  induction os as [|[a x] r IH]; intros d d' K H.
  - cbn in H. injection H as <-. split; [exact K|]. intros k. split; [reflexivity|].
    intros t (u & v & E & _). destruct u; discriminate.
  - cbn [parse] in H. destruct (kind_of a registered) as [kd|] eqn:KO; [|discriminate]. destruct (conv kd x) as [v|] eqn:CV; [|discriminate].
    destruct (IH _ _ (eq_trans (keys_update a v d) K) H) as (K' & P). split; [exact K'|]. intros k. destruct (P k) as (P1 & P2). split.
    + intros N. rewrite P1; [|intros X; apply N; now right]. rewrite lookup_update.
      destruct (String.eqb k a) eqn:E; [|reflexivity]. apply String.eqb_eq in E. subst. exfalso. apply N. now left.
    + intros t L. destruct (last_given_dec r k) as [N|[t' L']].
      * destruct L as ([|y u] & w & E & N').
        -- cbn in E. injection E as -> -> <-. exists kd, v. split; [now apply kind_of_In|]. split; [exact CV|].
           rewrite P1 by exact N. rewrite lookup_update, String.eqb_refl.
           apply kind_of_In in KO. assert (X : In k (keys d)) by (rewrite K; apply in_map_iff; exists (k, kd); auto).
           apply lookup_keys in X. destruct X as [z ->]. reflexivity.
        -- cbn in E. injection E as <- E. exfalso. apply (never_last r k t N). exists u, w. auto.
      * assert (t = t') by (eapply last_given_fun; [exact L|now apply last_given_cons_other]). subst. exact (P2 _ L').
Qed.
Lemma parse_none conv : forall os d, parse conv d os = None <->
  exists k t, In (k, t) os /\ (~ parameter k \/ exists kd, In (k, kd) registered /\ conv kd t = None).
Proof.
  induction os as [|[a x] r IH]; intros d; cbn [parse].
  - split; [discriminate|]. intros (k & t & [] & _).
  - destruct (kind_of a registered) as [kd|] eqn:KO.
    + pose proof (kind_of_In _ _ _ KO) as HI. destruct (conv kd x) as [v|] eqn:CV.
      * rewrite IH. split.
        -- intros (k & t & H & Q). exists k, t. split; [now right|exact Q].
        -- intros (k & t & [[= -> ->]|H] & Q); [|exists k, t; auto]. exfalso. destruct Q as [Q|(kd' & I & Q)].
           ++ apply Q. apply parameter_iff. apply in_map_iff. exists (k, kd). auto.
           ++ rewrite (registered_unique _ _ _ I HI) in Q. congruence.
      * split; [|reflexivity]. intros _. exists a, x. split; [now left|]. right. exists kd. auto.
    + split; [|reflexivity]. intros _. exists a, x. split; [now left|]. left. rewrite parameter_iff. now apply kind_of_none.
Qed.
Lemma parse_requested conv os opts k v : parse conv (initial_options defaults) os = Some opts -> parameter k ->
  (lookup k opts = Some v <-> requested conv os k v).
Proof.
  intros H PK. destruct (parse_spec _ _ _ _ (keys_initial defaults) H) as (_ & P). destruct (P k) as (P1 & P2). unfold requested. split.
  - intros L. destruct (last_given_dec os k) as [N|[t G]].
    + right. split; [exact N|]. rewrite (P1 N) in L. destruct (lookup_initial k PK) as (w & D & E). congruence.
    + left. destruct (P2 t G) as (kd & w & A & B & D). exists t, kd. split; [exact G|]. split; [exact A|]. congruence.
  - intros [(t & kd & G & A & B)|(N & D)].
    + destruct (P2 t G) as (kd' & w & A' & B' & D'). rewrite (registered_unique _ _ _ A' A) in B'. congruence.
    + rewrite (P1 N). destruct (lookup_initial k PK) as (w & D' & E). rewrite E. apply doc_lookup in D, D'. congruence.
Qed.

(** ** Assembling and removing the interface keys *)
Lemma adel_app k (A B : adict) : ~ In k (map fst A) -> adel k (A ++ B)%list = option_map (app A) (adel k B).
Proof.
  induction A as [|[a v] A IH]; cbn [app adel map In fst]; intros N; [now destruct (adel k B)|].
  destruct (String.eqb k a) eqn:E; [apply String.eqb_eq in E; subst; tauto|]. rewrite IH by tauto. now destruct (adel k B).
Qed.
Lemma alookup_app k (A B : adict) : ~ In k (map fst A) -> alookup k (A ++ B)%list = alookup k B.
Proof.
  induction A as [|[a v] A IH]; cbn [app alookup map In fst]; intros N; [reflexivity|].
  destruct (String.eqb k a) eqn:E; [apply String.eqb_eq in E; subst; tauto|]. apply IH. tauto.
Qed.
Lemma interface_not_registered : forallb (fun k => negb (mem k (map fst registered))) interface_keys = true.
Proof. vm_compute. reflexivity. Qed.
Lemma interface_not_parameter k : In k interface_keys -> ~ parameter k.
Proof.
  intros H P. apply (proj1 (parameter_iff k)) in P. apply mem_In in P. pose proof (proj1 (forallb_forall _ _) interface_not_registered k H) as X. cbv beta in X. now rewrite P in X.
Qed.
Lemma to_settings_map opts : to_settings (map (fun kv => (fst kv, AVal (snd kv))) opts) = opts.
Proof. induction opts as [|[k v] r IH]; cbn [map to_settings fst snd]; [reflexivity|now rewrite IH]. Qed.

Section Assemble.
  Variables (opts : dict) (bbf : string) (load log points save : option string) (pause : Q) (print : pyval).
  Hypothesis K : keys opts = map fst registered.
  Let args := assemble opts bbf load log points save pause print.
  Let A : adict := map (fun kv => (fst kv, AVal (snd kv))) opts.
  Lemma notA k : In k interface_keys -> ~ In k (map fst A).
  Proof.
    intros H X. apply (interface_not_parameter k H). apply parameter_iff. rewrite <- K. unfold A in X. rewrite map_map in X. exact X.
  Qed.
  Lemma adels_assemble : adels interface_keys args = Some A.
  Proof.
    pose proof notA as N. unfold args, assemble. fold A. clearbody A. unfold interface_keys in *.
    cbn [adels].
    do 7 (rewrite adel_app by (apply N; cbn; tauto); cbn [adel String.eqb Ascii.eqb Bool.eqb option_map adels]).
    now rewrite app_nil_r.
  Qed.
  Lemma lookups : alookup "output_stream" args = Some (match log with None => ANone | Some s => AVal (PStr s) end) /\
    alookup "load_state" args = Some (match load with None => ANone | Some s => AVal (PStr s) end) /\
    alookup "points_file" args = Some (match points with None => ANone | Some s => AVal (PStr s) end) /\
    alookup "dump_state" args = Some (match save with None => ANone | Some s => AVal (PStr s) end) /\
    alookup "pause" args = Some (AVal (PNum pause)) /\
    alookup "print_solution" args = Some (AVal print).
  Proof.
    pose proof notA as N. unfold args, assemble. fold A. clearbody A. unfold interface_keys in *.
    repeat split; rewrite alookup_app by (apply N; cbn; tauto); reflexivity.
  Qed.
  Definition opened fs := match log with None => true | Some f => can_open fs f end.
  Lemma cl_equation fs is_bb dim : cl_interface fs is_bb dim args =
    if negb is_bb then CFail CNotBlackBox else
    match from_dictionary opts with
    | SFail e => CFail (CSettings e)
    | SOk settings =>
        if negb (opened fs) then CFail CUnbound else
        let finish src := COk (mkPlan src pause (truth (AVal print)) save log) in
        match load with
        | Some f => finish (Loaded f)
        | None => match points with
                  | None => finish (Fresh settings None None)
                  | Some f => match rows_of fs f with
                              | None => CFail CFile
                              | Some rows => match read_points dim rows with
                                             | CFail e => CFail e
                                             | COk (pos, vals) => finish (Fresh settings (Some pos) vals)
                                             end
                              end
                  end
        end
    end.
  Proof.
    destruct lookups as (L1 & L2 & L3 & L4 & L5 & L6). unfold cl_interface. rewrite L1, L2, L3, L4, L5, L6, adels_assemble.
    unfold A. rewrite to_settings_map. destruct is_bb; [|reflexivity]. cbn [negb]. destruct (from_dictionary opts) as [st|er]; [|reflexivity].
    unfold opened. destruct log as [lf|]; destruct load as [ld|]; destruct points as [pf|]; destruct save as [sv|]; cbn [text_of truth]; reflexivity.
  Qed.
End Assemble.

(** ** Points file *)
Lemma regular_iff rows : regular rows = true <-> exists w, Forall (fun r => List.length r = w) rows.
Proof.
  destruct rows as [|r rs]; cbn [regular].
  - split; [intros _; exists 0%nat; constructor|reflexivity].
  - rewrite forallb_forall. split.
    + intros H. exists (List.length r). apply Forall_forall. intros x Hx. apply Nat.eqb_eq. now apply H.
    + intros [w H] x Hx. rewrite Forall_forall in H. apply Nat.eqb_eq. rewrite (H x Hx). symmetry. apply H. now left.
Qed.
Lemma removelast_length {A} (l : list A) : List.length (removelast l) = (List.length l - 1)%nat.
Proof. induction l as [|a [|b r] IH]; [reflexivity|reflexivity|]. cbn [removelast List.length] in *. rewrite IH. lia. Qed.
(** Success means: all rows have one common length; with [dim+1] columns the last one is the values. *)
Lemma read_points_spec dim rows pos vals : read_points dim rows = COk (pos, vals) ->
  rows <> [] /\
  ((rows_with_values dim rows /\ pos = map (fun r => removelast r) rows /\ vals = Some (map (fun r => last r 0) rows)) \/
   ((exists w, w <> (dim + 1)%nat /\ Forall (fun r => List.length r = w) rows) /\ pos = rows /\ vals = None)).
Proof.
  destruct rows as [|r rs]; [discriminate|]. intros H. split; [discriminate|]. revert H.
  unfold read_points. destruct (List.length r =? dim + 1)%nat eqn:E.
  - apply Nat.eqb_eq in E. destruct (existsb _ (r :: rs)) eqn:X; [discriminate|].
    destruct (regular (map (fun x => removelast x) (r :: rs))) eqn:RG; [|discriminate].
    intros H. injection H as <- <-. left. split; [|split; reflexivity].
    apply regular_iff in RG. destruct RG as [w RG]. rewrite Forall_forall in RG. apply Forall_forall. intros x Hx.
    assert (L0 : List.length x <> 0%nat).
    { intros Z. assert (C : existsb (fun x => (List.length x =? 0)%nat) (r :: rs) = true) by (apply existsb_exists; exists x; split; [exact Hx|now apply Nat.eqb_eq]).
      rewrite C in X. discriminate. }
    assert (H1 : List.length (removelast x) = w) by (apply RG, in_map_iff; exists x; auto).
    assert (H2 : List.length (removelast r) = w) by (apply RG, in_map_iff; exists r; split; [auto|now left]).
    rewrite removelast_length in H1, H2. lia.
  - apply Nat.eqb_neq in E. destruct (regular (r :: rs)) eqn:RG; [|discriminate]. intros H. injection H as <- <-. right.
    split; [|split; reflexivity]. apply regular_iff in RG. destruct RG as [w RG]. exists w. split; [|exact RG].
    inversion RG; subst. exact E.
Qed.
Lemma read_points_values dim rows : rows <> [] -> rows_with_values dim rows ->
  read_points dim rows = COk (map (fun r => removelast r) rows, Some (map (fun r => last r 0) rows)).
Proof.
  intros NE H. destruct rows as [|r rs]; [congruence|]. unfold read_points.
  rewrite (proj2 (Nat.eqb_eq _ _) (Forall_inv H)).
  assert (X : existsb (fun x : list Q => (List.length x =? 0)%nat) (r :: rs) = false).
  { apply not_true_is_false. intros C. apply existsb_exists in C. destruct C as (x & I & C). apply Nat.eqb_eq in C.
    unfold rows_with_values in H. rewrite Forall_forall in H. specialize (H x I). lia. }
  rewrite X. assert (RG : regular (map (fun x : list Q => removelast x) (r :: rs)) = true).
  { apply regular_iff. exists dim. apply Forall_forall. intros y Hy. apply in_map_iff in Hy. destruct Hy as (x & <- & I).
    unfold rows_with_values in H. rewrite Forall_forall in H. specialize (H x I). rewrite removelast_length. lia. }
  now rewrite RG.
Qed.
Lemma read_points_plain dim w rows : rows <> [] -> w <> (dim + 1)%nat -> Forall (fun r => List.length r = w) rows ->
  read_points dim rows = COk (rows, None).
Proof.
  intros NE W H. destruct rows as [|r rs]; [congruence|]. unfold read_points.
  rewrite (proj2 (Nat.eqb_neq _ _)) by (rewrite (Forall_inv H); exact W).
  now rewrite (proj2 (regular_iff (r :: rs)) (ex_intro _ w H)).
Qed.

Lemma truth_iff v : truth (AVal v) = true <-> asks_to_print v.
Proof.
  unfold asks_to_print. destruct v as [q|s|b]; cbn [truth].
  - rewrite negb_true_iff. split.
    + intros H. repeat split; try discriminate. intros x [= <-] E. apply Qeq_bool_iff in E. congruence.
    + intros (_ & _ & H). destruct (Qeq_bool q 0) eqn:E; [|reflexivity]. apply Qeq_bool_iff in E. exfalso. now apply (H q).
  - rewrite negb_true_iff, String.eqb_neq. split; [intros H; repeat split; congruence|intros (_ & H & _) ->; congruence].
  - split; [intros ->; repeat split; discriminate|intros (H & _); destruct b; congruence].
Qed.
