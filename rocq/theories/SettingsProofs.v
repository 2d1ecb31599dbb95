(** * Settings: lemmas for C37 - C40. *)
From Verif Require Export ModelSettings.
From Verif Require Import BaseLemmas.
From Coq Require Import Lia Lqa.
Open Scope string_scope.
Open Scope Q_scope.

Lemma mem_In k l : mem k l = true <-> In k l.
Proof.
  unfold mem. rewrite existsb_exists. split.
  - intros (x & Hx & E). apply String.eqb_eq in E. subst; exact Hx.
  - intros H. exists k. split; [exact H|apply String.eqb_refl].
Qed.
Lemma lookup_update k v d k' : lookup k' (update k v d) =
  if String.eqb k' k then (match lookup k d with Some _ => Some v | None => None end) else lookup k' d.
Proof.
  induction d as [|[a w] r IH]; cbn.
  - destruct (String.eqb k' k); reflexivity.
  - destruct (String.eqb_spec k a) as [->|Hka]; cbn.
    + destruct (String.eqb_spec k' a); reflexivity.
    + rewrite IH. destruct (String.eqb_spec k' a) as [->|]; [|reflexivity].
      destruct (String.eqb_spec a k) as [->|]; [congruence|reflexivity].
Qed.
Lemma keys_update k v d : keys (update k v d) = keys d.
Proof. unfold keys. induction d as [|[a w] r IH]; cbn; [reflexivity|]. destruct (String.eqb k a); cbn; rewrite ?IH; reflexivity. Qed.
Lemma lookup_keys k d : (exists v, lookup k d = Some v) <-> In k (keys d).
Proof.
  unfold keys. induction d as [|[a w] r IH]; cbn.
  - split; [intros [v H]; discriminate|intros []].
  - destruct (String.eqb_spec k a) as [->|Hk].
    + split; [auto|eauto].
    + rewrite IH. split; [auto|]. intros [H|H]; [congruence|exact H].
Qed.

Definition given (k : string) (args : dict) : option pyval :=
  match lookup k args with Some v => Some v | None => lookup k defaults end.
Lemma lookup_map_assign k args : forall ds,
  lookup k (map (fun kd => (fst kd, match lookup (fst kd) args with Some v => v | None => snd kd end)) ds) =
  match lookup k ds with
  | None => None
  | Some d => Some (match lookup k args with Some v => v | None => d end)
  end.
Proof.
  induction ds as [|[a w] r IH]; cbn; [reflexivity|].
  destruct (String.eqb_spec k a) as [->|]; [reflexivity|exact IH].
Qed.
Lemma lookup_assign k args : In k (keys defaults) -> lookup k (assign args) = given k args.
Proof.
  intros H. unfold assign. rewrite lookup_map_assign. unfold given.
  apply lookup_keys in H. destruct H as [v ->]. destruct (lookup k args); reflexivity.
Qed.
Lemma keys_assign args : keys (assign args) = keys defaults.
Proof. unfold keys, assign. rewrite map_map. apply map_ext. reflexivity. Qed.

Lemma check_ok d : forall ps r, check_nonnegative d ps = SOk r <->
  r = d /\ forall p, In p ps -> (exists q, lookup p d = Some (PNum q) /\ 0 <= q) \/ (exists b, lookup p d = Some (PBool b)).
Proof.
  induction ps as [|p ps IH]; intros r; cbn.
  - split; [intros H; inversion H; subst; split; [reflexivity|intros ? []]|intros [-> _]; reflexivity].
  - destruct (lookup p d) as [[q|s|b]|] eqn:E.
    + destruct (Qltb q 0) eqn:B.
      * split; [discriminate|]. intros [_ H]. destruct (H p (or_introl eq_refl)) as [(q' & Hq & Hle)|(b & Hb)].
        -- rewrite E in Hq. inversion Hq; subst. apply Qltb_lt in B. lra.
        -- rewrite E in Hb. discriminate.
      * rewrite IH. split; intros [Hr H]; (split; [exact Hr|]).
        -- intros p' [<-|Hp']; [|auto]. left. exists q. split; [exact E|]. apply Qltb_ge in B. lra.
        -- intros p' Hp'. apply H. right; exact Hp'.
    + split; [discriminate|]. intros [_ H]. destruct (H p (or_introl eq_refl)) as [(q' & Hq & _)|(b & Hb)]; congruence.
    + rewrite IH. split; intros [Hr H]; (split; [exact Hr|]).
      * intros p' [<-|Hp']; [|auto]. right. exists b. exact E.
      * intros p' Hp'. apply H. right; exact Hp'.
    + split; [discriminate|]. intros [_ H]. destruct (H p (or_introl eq_refl)) as [(q' & Hq & _)|(b & Hb)]; congruence.
Qed.
Lemma option_ok_iff d o : option_ok d o = true <-> exists s, lookup (fst o) d = Some (PStr s) /\ In s (snd o).
Proof.
  unfold option_ok. destruct (lookup (fst o) d) as [[q|s|b]|].
  - split; [discriminate|intros (x & H & _); discriminate].
  - rewrite mem_In. split; [eauto|]. intros (x & H & Hin). inversion H; subst; exact Hin.
  - split; [discriminate|intros (x & H & _); discriminate].
  - split; [discriminate|intros (x & H & _); discriminate].
Qed.
Lemma nonneg_keys p : In p nonnegative_parameters -> In p (keys defaults).
Proof.
  intros H. apply mem_In. revert p H. apply (proj1 (forallb_forall (fun p => mem p (keys defaults)) nonnegative_parameters)).
  vm_compute. reflexivity.
Qed.
Lemma allowed_keys o : In o allowed -> In (fst o) (keys defaults).
Proof.
  intros H. apply mem_In. revert o H. apply (proj1 (forallb_forall (fun o => mem (fst o) (keys defaults)) allowed)).
  vm_compute. reflexivity.
Qed.

Lemma construct_ok args d : construct args = SOk d <->
  (forall k, In k (keys args) -> In k (keys defaults)) /\
  (forall o vs, In (o, vs) allowed -> exists s, given o args = Some (PStr s) /\ In s vs) /\
  (forall p, In p nonnegative_parameters ->
     (exists q, given p args = Some (PNum q) /\ 0 <= q) \/ (exists b, given p args = Some (PBool b))) /\
  d = assign args.
Proof.
  unfold construct. destruct (forallb (fun k => mem k (keys defaults)) (keys args)) eqn:K.
  - assert (HK : forall k, In k (keys args) -> In k (keys defaults)).
    { rewrite forallb_forall in K. intros k Hk. apply mem_In. auto. }
    unfold validate. destruct (forallb (option_ok (assign args)) allowed) eqn:O.
    + rewrite forallb_forall in O. rewrite check_ok. split.
      * intros [-> H]. split; [exact HK|]. split; [|split; [|reflexivity]].
        -- intros o vs Ho. pose proof (O _ Ho) as B. apply option_ok_iff in B. cbn [fst snd] in B.
           rewrite lookup_assign in B by (apply (allowed_keys _ Ho)). exact B.
        -- intros p Hp. rewrite <- !lookup_assign by (apply nonneg_keys; exact Hp). exact (H p Hp).
      * intros (_ & _ & H & ->). split; [reflexivity|]. intros p Hp.
        rewrite !lookup_assign by (apply nonneg_keys; exact Hp). exact (H p Hp).
    + split; [discriminate|]. intros (_ & H & _). exfalso.
      assert (X : forallb (option_ok (assign args)) allowed = true); [|congruence].
      apply forallb_forall. intros [o vs] Ho. apply option_ok_iff. cbn [fst snd].
      rewrite lookup_assign by (apply (allowed_keys _ Ho)). exact (H o vs Ho).
  - split; [discriminate|]. intros (H & _). exfalso.
    assert (X : forallb (fun k => mem k (keys defaults)) (keys args) = true); [|congruence].
    apply forallb_forall. intros k Hk. apply mem_In. auto.
Qed.
Lemma construct_default : construct [] = SOk (assign []).
Proof. vm_compute. reflexivity. Qed.
Lemma from_dictionary_ok args d : from_dictionary args = SOk d <-> construct args = SOk d.
Proof.
  unfold from_dictionary. rewrite construct_default, keys_assign.
  destruct (forallb (fun k => mem k (keys defaults)) (keys args)) eqn:K; [tauto|].
  split; [discriminate|]. unfold construct. rewrite K. discriminate.
Qed.
Lemma construct_values args d k : construct args = SOk d -> In k (keys defaults) ->
  lookup k d = given k args.
Proof. intros H Hk. apply construct_ok in H. destruct H as (_ & _ & _ & ->). apply lookup_assign. exact Hk. Qed.

(** ** Automatic values *)
Lemma is_str_iff k s d : is_str k s d = true <-> lookup k d = Some (PStr s).
Proof.
  unfold is_str. destruct (lookup k d) as [[q|v|b]|]; try (split; [discriminate|congruence]).
  rewrite String.eqb_eq. split; [intros ->; reflexivity|congruence].
Qed.
Definition auto_keys : list string :=
  ["rbf"; "function_scaling"; "dynamism_clipping"; "domain_scaling"; "init_sample_fraction"].
Lemma lookup_if_auto k v d k' : lookup k' (if_auto k v d) =
  if String.eqb k' k then (if is_str k "auto" d then Some (PStr v) else lookup k d) else lookup k' d.
Proof.
  unfold if_auto. destruct (is_str k "auto" d) eqn:E.
  - rewrite lookup_update. apply is_str_iff in E. rewrite E. reflexivity.
  - destruct (String.eqb_spec k' k) as [->|]; reflexivity.
Qed.
Definition auto_frac (dimension : nat) (cpus : Q) : Q :=
  if Qle_bool cpus 2 then (if (dimension <=? 20)%nat then 1#2 else 2#5)
  else if (dimension <=? 20)%nat then 1 else if (dimension <=? 50)%nat then 3#4 else 1#2.
Lemma auto_frac_pos n c : 0 <= auto_frac n c.
Proof. unfold auto_frac. repeat (destruct (_ : bool)); lra. Qed.

(** What the automatic pass does to each attribute. *)
Lemma set_auto_lookup n lo up ints d d' : set_auto_parameters n lo up ints d = SOk d' ->
  (forall k, ~ In k auto_keys -> lookup k d' = lookup k d) /\
  lookup "rbf" d' = (if is_str "rbf" "auto" d then Some (PStr "thin_plate_spline") else lookup "rbf" d) /\
  lookup "function_scaling" d' =
    (if is_str "function_scaling" "auto" d then Some (PStr "off") else lookup "function_scaling" d) /\
  lookup "dynamism_clipping" d' =
    (if is_str "dynamism_clipping" "auto" d then Some (PStr "median") else lookup "dynamism_clipping" d) /\
  lookup "domain_scaling" d' =
    (if is_str "domain_scaling" "auto" d then
       Some (PStr (match ints with
                   | _ :: _ => "off"
                   | [] => if Qle_bool (5 * Qlist_min (map2 Qminus up lo)) (Qlist_max (map2 Qminus up lo))
                           then "affine" else "off" end))
     else lookup "domain_scaling" d) /\
  lookup "init_sample_fraction" d' =
    match lookup "init_sample_fraction" d, lookup "num_cpus" d with
    | Some (PNum f), Some (PNum cpus) => Some (PNum (if Qltb f 0 then auto_frac n cpus else f))
    | _, _ => lookup "init_sample_fraction" d
    end /\ keys d' = keys d.
Proof.
  unfold set_auto_parameters. destruct (_ && _ && _); [|discriminate].
  set (d3 := if_auto "dynamism_clipping" "median" (if_auto "function_scaling" "off" (if_auto "rbf" "thin_plate_spline" d))).
  assert (K3 : keys d3 = keys d).
  { unfold d3, if_auto. repeat match goal with |- context [if is_str ?a ?b ?c then _ else _] => destruct (is_str a b c) end;
    rewrite ?keys_update; reflexivity. }
  assert (L3 : forall k, lookup k d3 =
     if String.eqb k "dynamism_clipping" then (if is_str "dynamism_clipping" "auto" d then Some (PStr "median") else lookup "dynamism_clipping" d)
     else if String.eqb k "function_scaling" then (if is_str "function_scaling" "auto" d then Some (PStr "off") else lookup "function_scaling" d)
     else if String.eqb k "rbf" then (if is_str "rbf" "auto" d then Some (PStr "thin_plate_spline") else lookup "rbf" d)
     else lookup k d).
  { intros k. unfold d3. rewrite !lookup_if_auto.
    assert (A : is_str "dynamism_clipping" "auto" (if_auto "function_scaling" "off" (if_auto "rbf" "thin_plate_spline" d)) = is_str "dynamism_clipping" "auto" d).
    { unfold is_str. rewrite !lookup_if_auto. reflexivity. }
    assert (B : is_str "function_scaling" "auto" (if_auto "rbf" "thin_plate_spline" d) = is_str "function_scaling" "auto" d).
    { unfold is_str. rewrite !lookup_if_auto. reflexivity. }
    rewrite A, B. cbn [String.eqb Ascii.eqb Bool.eqb]. reflexivity. }
  clearbody d3.
  destruct (auto_domain lo up ints d3) as [d4|] eqn:E4; [|discriminate].
  intros H. inversion H; subst d'; clear H.
  assert (S3 : is_str "domain_scaling" "auto" d3 = is_str "domain_scaling" "auto" d).
  { unfold is_str. rewrite L3. reflexivity. }
  assert (L4 : forall k, lookup k d4 = if String.eqb k "domain_scaling" then
     (if is_str "domain_scaling" "auto" d then
       Some (PStr (match ints with
                   | _ :: _ => "off"
                   | [] => if Qle_bool (5 * Qlist_min (map2 Qminus up lo)) (Qlist_max (map2 Qminus up lo))
                           then "affine" else "off" end))
     else lookup "domain_scaling" d) else lookup k d3).
  { unfold auto_domain in E4. rewrite S3 in E4. intros k.
    destruct (is_str "domain_scaling" "auto" d) eqn:Sd.
    - assert (HL : lookup "domain_scaling" d3 = Some (PStr "auto")) by (apply is_str_iff; exact S3).
      destruct ints as [|i0 ir].
      + destruct (map2 Qminus up lo) as [|x xs] eqn:Em; [discriminate|]. inversion E4. rewrite lookup_update, HL. reflexivity.
      + inversion E4. rewrite lookup_update, HL. reflexivity.
    - inversion E4; subst. destruct (String.eqb_spec k "domain_scaling") as [->|]; [|reflexivity]. rewrite L3. reflexivity. }
  assert (K4 : keys d4 = keys d3).
  { unfold auto_domain in E4. destruct (is_str "domain_scaling" "auto" d3); [|congruence].
    destruct ints as [|i0 ir]; [destruct (map2 Qminus up lo); [discriminate|]|]; inversion E4; apply keys_update. }
  assert (L5 : forall k, lookup k (auto_fraction n d4) = if String.eqb k "init_sample_fraction" then
      match lookup "init_sample_fraction" d, lookup "num_cpus" d with
      | Some (PNum f), Some (PNum cpus) => Some (PNum (if Qltb f 0 then auto_frac n cpus else f))
      | _, _ => lookup "init_sample_fraction" d end else lookup k d4).
  { intros k. unfold auto_fraction.
    assert (A : lookup "init_sample_fraction" d4 = lookup "init_sample_fraction" d) by (rewrite L4, L3; reflexivity).
    assert (B : lookup "num_cpus" d4 = lookup "num_cpus" d) by (rewrite L4, L3; reflexivity).
    rewrite A, B. destruct (lookup "init_sample_fraction" d) as [[f|s|b]|] eqn:Ef;
      try (destruct (String.eqb_spec k "init_sample_fraction") as [->|]; [rewrite A|]; reflexivity).
    destruct (lookup "num_cpus" d) as [[cp|s|b]|] eqn:Ec;
      try (destruct (String.eqb_spec k "init_sample_fraction") as [->|]; [rewrite A|]; reflexivity).
    destruct (Qltb f 0).
    - rewrite lookup_update, A. reflexivity.
    - destruct (String.eqb_spec k "init_sample_fraction") as [->|]; [rewrite A|]; reflexivity. }
  assert (K5 : keys (auto_fraction n d4) = keys d4).
  { unfold auto_fraction. destruct (lookup "init_sample_fraction" d4) as [[f|s|b]|]; try reflexivity.
    destruct (lookup "num_cpus" d4) as [[cp|s|b]|]; try reflexivity. destruct (Qltb f 0); [apply keys_update|reflexivity]. }
  split; [|rewrite !L5; cbn [String.eqb Ascii.eqb Bool.eqb]; rewrite !L4; cbn [String.eqb Ascii.eqb Bool.eqb]; rewrite !L3; cbn [String.eqb Ascii.eqb Bool.eqb]; repeat split; congruence].
  intros k Hk. rewrite L5, L4, L3.
  assert (N : forall x, In x auto_keys -> String.eqb k x = false).
  { intros x Hx. apply String.eqb_neq. intros ->. apply Hk. exact Hx. }
  rewrite !N by (unfold auto_keys; cbn [In]; tauto). reflexivity.
Qed.

(** No option is automatic any more. *)
Definition resolved (d : dict) : Prop :=
  is_str "rbf" "auto" d = false /\ is_str "function_scaling" "auto" d = false /\
  is_str "dynamism_clipping" "auto" d = false /\ is_str "domain_scaling" "auto" d = false.
Lemma set_auto_resolved n lo up ints d d' : set_auto_parameters n lo up ints d = SOk d' -> resolved d'.
Proof.
  intros H. destruct (set_auto_lookup _ _ _ _ _ _ H) as (_ & A & B & D & E & _).
  assert (G : forall k, (exists s, s <> "auto" /\ lookup k d' = (if is_str k "auto" d then Some (PStr s) else lookup k d)) ->
     is_str k "auto" d' = false).
  { intros k (s & Hs & Hl). unfold is_str at 1. rewrite Hl. destruct (is_str k "auto" d) eqn:K.
    - apply String.eqb_neq. exact Hs.
    - unfold is_str in K. destruct (lookup k d) as [[q|v|b]|]; auto. }
  split; [apply G; eexists; split; [|exact A]; discriminate|].
  split; [apply G; eexists; split; [|exact B]; discriminate|].
  split; [apply G; eexists; split; [|exact D]; discriminate|].
  apply G. eexists. split; [|exact E]. destruct ints; [|discriminate].
  destruct (Qle_bool _ _); discriminate.
Qed.
Lemma set_auto_fraction n lo up ints d d' f cpus : set_auto_parameters n lo up ints d = SOk d' ->
  lookup "init_sample_fraction" d = Some (PNum f) -> lookup "num_cpus" d = Some (PNum cpus) ->
  exists f', lookup "init_sample_fraction" d' = Some (PNum f') /\ 0 <= f'.
Proof.
  intros H Hf Hc. destruct (set_auto_lookup _ _ _ _ _ _ H) as (_ & _ & _ & _ & _ & F & _).
  rewrite Hf, Hc in F. eexists. split; [exact F|]. destruct (Qltb f 0) eqn:B; [apply auto_frac_pos|].
  apply Qltb_ge in B. exact B.
Qed.
Lemma set_auto_keeps n lo up ints d d' k : set_auto_parameters n lo up ints d = SOk d' ->
  k <> "init_sample_fraction" -> is_str k "auto" d = false -> lookup k d' = lookup k d.
Proof.
  intros H Hk Hs. destruct (set_auto_lookup _ _ _ _ _ _ H) as (O & A & B & D & E & F & _).
  destruct (in_dec String.string_dec k auto_keys) as [Hin|Hin]; [|apply O; exact Hin].
  cbn in Hin. destruct Hin as [<-|[<-|[<-|[<-|[<-|[]]]]]]; try congruence;
    rewrite Hs in *; assumption.
Qed.
Lemma set_auto_keeps_fraction n lo up ints d d' f : set_auto_parameters n lo up ints d = SOk d' ->
  lookup "init_sample_fraction" d = Some (PNum f) -> 0 <= f -> lookup "init_sample_fraction" d' = Some (PNum f).
Proof.
  intros H Hf Hp. destruct (set_auto_lookup _ _ _ _ _ _ H) as (_ & _ & _ & _ & _ & F & _).
  rewrite Hf in F. destruct (lookup "num_cpus" d) as [[c|s|b]|]; try exact F.
  destruct (Qltb f 0) eqn:B; [apply Qltb_lt in B; lra|exact F].
Qed.
Lemma set_auto_idem n lo up ints d d' : set_auto_parameters n lo up ints d = SOk d' ->
  set_auto_parameters n lo up ints d' = SOk d'.
Proof.
  intros H. pose proof (set_auto_resolved _ _ _ _ _ _ H) as (A & B & D & E).
  destruct (set_auto_lookup _ _ _ _ _ _ H) as (O & _ & _ & _ & _ & F & _).
  unfold set_auto_parameters in *. destruct (_ && _ && _); [|discriminate]. clear H.
  assert (X : if_auto "rbf" "thin_plate_spline" d' = d') by (unfold if_auto; rewrite A; reflexivity). rewrite X.
  assert (Y : if_auto "function_scaling" "off" d' = d') by (unfold if_auto; rewrite B; reflexivity). rewrite Y.
  assert (Z : if_auto "dynamism_clipping" "median" d' = d') by (unfold if_auto; rewrite D; reflexivity). rewrite Z.
  unfold auto_domain. rewrite E. f_equal. unfold auto_fraction.
  assert (N : lookup "num_cpus" d' = lookup "num_cpus" d).
  { apply O. cbn. intros Hin. repeat (destruct Hin as [Hin|Hin]; [discriminate|]). exact Hin. }
  rewrite F, N. destruct (lookup "init_sample_fraction" d) as [[f|s|b]|] eqn:Ef; try reflexivity.
  destruct (lookup "num_cpus" d) as [[c|s|b]|]; try reflexivity.
  assert (P : Qltb (if Qltb f 0 then auto_frac n c else f) 0 = false).
  { apply Qltb_ge. destruct (Qltb f 0) eqn:Bf; [apply auto_frac_pos|apply Qltb_ge in Bf; exact Bf]. }
  rewrite P. reflexivity.
Qed.

(** When does the automatic pass fail? *)
Lemma set_auto_defined n lo up ints d : length lo = n -> length up = n ->
  (forall j, In j ints -> (j < n)%nat) -> (n <> 0%nat \/ is_str "domain_scaling" "auto" d = false) ->
  exists d', set_auto_parameters n lo up ints d = SOk d'.
Proof.
  intros H1 H2 H3 H4. unfold set_auto_parameters.
  rewrite H1, H2, Nat.eqb_refl. cbn [andb].
  assert (F : forallb (fun j => (j <? n)%nat) ints = true).
  { apply forallb_forall. intros j Hj. apply Nat.ltb_lt. auto. }
  rewrite F. unfold auto_domain.
  set (d3 := if_auto _ _ _). destruct (is_str "domain_scaling" "auto" d3) eqn:S3; [|eauto].
  destruct ints as [|i0 ir]; [|eauto].
  destruct (map2 Qminus up lo) as [|x xs] eqn:Em; [|eauto]. exfalso.
  assert (n = 0%nat).
  { destruct n as [|m]; [reflexivity|]. destruct up as [|u up]; [discriminate|]. destruct lo as [|l lo]; discriminate. }
  destruct H4 as [H4|H4]; [congruence|].
  assert (S : is_str "domain_scaling" "auto" d3 = is_str "domain_scaling" "auto" d).
  { unfold d3, is_str. rewrite !lookup_if_auto. reflexivity. }
  congruence.
Qed.
Lemma set_auto_all_fixed d : is_str "domain_scaling" "auto" d = true ->
  set_auto_parameters 0 [] [] [] d = SFail SIndex.
Proof.
  intros H. unfold set_auto_parameters. cbn [length Nat.eqb andb forallb]. unfold auto_domain.
  set (d3 := if_auto _ _ _).
  assert (S : is_str "domain_scaling" "auto" d3 = is_str "domain_scaling" "auto" d).
  { unfold d3, is_str. rewrite !lookup_if_auto. reflexivity. }
  rewrite S, H. reflexivity.
Qed.

Lemma Qlist_min_spec l : l <> [] -> (exists x, In x l /\ x = Qlist_min l) /\ forall x, In x l -> Qlist_min l <= x.
Proof.
  intros H. destruct (argmin_spec l H) as (A & B & _). split.
  - exists (Qlist_min l). split; [unfold Qlist_min; apply nth_In; exact A|reflexivity].
  - intros x Hx. destruct (In_nth _ _ 0 Hx) as (j & Hj & <-). apply B. exact Hj.
Qed.
Lemma Qlist_max_spec' l : l <> [] -> (exists x, In x l /\ x = Qlist_max l) /\ forall x, In x l -> x <= Qlist_max l.
Proof.
  intros H. destruct (argmax_spec l H) as (A & B & _). split.
  - exists (Qlist_max l). split; [unfold Qlist_max; apply nth_In; exact A|reflexivity].
  - intros x Hx. destruct (In_nth _ _ 0 Hx) as (j & Hj & <-). apply B. exact Hj.
Qed.
(** [5 * smallest <= largest] iff some range is at least five times another one (for nonnegative
    ranges). *)
Lemma badly_scaled_iff l : l <> [] -> (forall x, In x l -> 0 <= x) ->
  (Qle_bool (5 * Qlist_min l) (Qlist_max l) = true <-> exists x y, In x l /\ In y l /\ 5 * x <= y).
Proof.
  intros Hne Hp. destruct (Qlist_min_spec l Hne) as [(a & Ha & Ea) Hmin].
  destruct (Qlist_max_spec' l Hne) as [(b & Hb & Eb) Hmax]. rewrite Qle_bool_iff. split.
  - intros H. exists a, b. subst a b. auto.
  - intros (x & y & Hx & Hy & H). pose proof (Hmin x Hx). pose proof (Hmax y Hy). lra.
Qed.
Lemma map2_minus_nth : forall (up lo : point) x, In x (map2 Qminus up lo) <->
  exists j, (j < length up)%nat /\ (j < length lo)%nat /\ x = nth j up 0 - nth j lo 0.
Proof.
  induction up as [|u up IH]; intros [|l lo] x; cbn.
  - split; [tauto|]. intros (j & H & _). lia.
  - split; [tauto|]. intros (j & H & _). lia.
  - split; [tauto|]. intros (j & _ & H & _). lia.
  - rewrite IH. split.
    + intros [<-|(j & H1 & H2 & ->)]; [exists 0%nat; repeat split; lia|exists (S j); repeat split; lia].
    + intros ([|j] & H1 & H2 & ->); [left; reflexivity|right; exists j; repeat split; lia].
Qed.
Lemma auto_domain_choice n lo up ints d d' :
  set_auto_parameters n lo up ints d = SOk d' -> lookup "domain_scaling" d = Some (PStr "auto") ->
  (forall j, (j < n)%nat -> nth j lo 0 <= nth j up 0) ->
  (lookup "domain_scaling" d' = Some (PStr "affine") <->
   ints = [] /\ exists i j, (i < n)%nat /\ (j < n)%nat /\
     5 * (nth i up 0 - nth i lo 0) <= nth j up 0 - nth j lo 0).
Proof.
  intros H Hd Hb. assert (HL : length lo = n /\ length up = n /\ (ints = [] -> map2 Qminus up lo <> [])).
  { unfold set_auto_parameters in H. destruct ((n =? length lo)%nat) eqn:E1; [|discriminate].
    destruct ((n =? length up)%nat) eqn:E2; [|discriminate]. apply Nat.eqb_eq in E1, E2.
    split; [auto|]. split; [auto|]. intros -> Em. cbn [andb forallb] in H. unfold auto_domain in H.
    set (d3 := if_auto _ _ _) in H.
    assert (S : is_str "domain_scaling" "auto" d3 = is_str "domain_scaling" "auto" d).
    { unfold d3, is_str. rewrite !lookup_if_auto. reflexivity. }
    apply is_str_iff in Hd. rewrite S, Hd in H. unfold point in *. rewrite Em in H. discriminate. }
  destruct HL as (L1 & L2 & Hne).
  destruct (set_auto_lookup _ _ _ _ _ _ H) as (_ & _ & _ & _ & E & _).
  apply is_str_iff in Hd. rewrite Hd in E. rewrite E. clear E.
  destruct ints as [|i0 ir]; [|split; [discriminate|intros [? _]; discriminate]].
  assert (P : forall x, In x (map2 Qminus up lo) -> 0 <= x).
  { intros x Hx. apply map2_minus_nth in Hx. destruct Hx as (j & J1 & J2 & ->). assert (Hj : (j < n)%nat) by (unfold point in *; lia).
    pose proof (Hb j Hj). lra. }
  pose proof (badly_scaled_iff _ (Hne eq_refl) P) as BS.
  destruct (Qle_bool _ _) eqn:B.
  - split; [|reflexivity]. intros _. split; [reflexivity|].
    destruct (proj1 BS eq_refl) as (x & y & Hx & Hy & Hle).
    apply map2_minus_nth in Hx, Hy. destruct Hx as (i & I1 & I2 & ->), Hy as (j & J1 & J2 & ->).
    exists i, j. unfold point in *. repeat split; try lia. exact Hle.
  - split; [intros X; inversion X|]. intros (_ & i & j & Hi & Hj & Hle). exfalso.
    assert (Qle_bool (5 * Qlist_min (map2 Qminus up lo)) (Qlist_max (map2 Qminus up lo)) = true); [|congruence].
    rewrite B. apply BS. exists (nth i up 0 - nth i lo 0), (nth j up 0 - nth j lo 0).
    repeat split; [apply map2_minus_nth; exists i| apply map2_minus_nth; exists j|exact Hle];
      unfold point in *; repeat split; lia.
Qed.
