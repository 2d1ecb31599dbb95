(** * Proofs about the test black boxes *)
From Verif Require Import BaseLemmas InitProofs.
From Verif Require Export SpecTestBB.
From Coq Require Import Permutation.
Open Scope Q_scope.

(** ** Noisy black box *)
Lemma noisy_brackets f rel ab p v el eu : evaluate_noisy f rel ab p = (v, el, eu) ->
  el <= 0 <= eu /\ v + el <= f p <= v + eu /\ (f p == v + el \/ f p == v + eu).
Proof.
  unfold evaluate_noisy. cbv zeta. intros H. apply pair_equal_spec in H. destruct H as [H <-]. apply pair_equal_spec in H. destruct H as [<- <-].
  assert (HX : f p + rel * Qabs (f p) + ab == f p + (rel * Qabs (f p) + ab)) by ring. rewrite !HX. clear HX.
  generalize (rel * Qabs (f p) + ab). intros x. pose proof (Qabs_nonneg x) as H0.
  revert H0. pattern (Qabs x). apply Qabs_case; intros Hx H0; (split; [split; lra|]); (split; [split; lra|]); [left|right]; lra.
Qed.
Lemma noisy_size f rel ab p v el eu R A : 0 <= R -> 0 <= A -> - R <= rel <= R -> - A <= ab <= A ->
  evaluate_noisy f rel ab p = (v, el, eu) ->
  Qabs (v - f p) <= R * Qabs (f p) + A /\ eu <= R * Qabs (f p) + A /\ el == - eu.
Proof.
  intros HR HA Hr Ha. unfold evaluate_noisy. cbv zeta. intros H. apply pair_equal_spec in H. destruct H as [H <-]. apply pair_equal_spec in H. destruct H as [<- <-].
  set (q := Qabs (f p)). assert (Hq : 0 <= q) by apply Qabs_nonneg.
  assert (E : f p + rel * q + ab - f p == rel * q + ab) by ring. rewrite E.
  assert (B : Qabs (rel * q + ab) <= R * q + A).
  { apply Qabs_Qle_condition. assert (- R * q <= rel * q) by (apply Qmult_le_compat_r; lra).
    assert (rel * q <= R * q) by (apply Qmult_le_compat_r; lra). split; lra. }
  split; [exact B|]. split; [exact B|reflexivity].
Qed.

(** ** Enlarged black box *)
Lemma position_spec j l : In j l -> (position j l < length l)%nat /\ nth (position j l) l 0%nat = j.
Proof.
  induction l as [|x r IH]; cbn; [tauto|]. intros H. destruct (Nat.eqb_spec x j) as [->|N]; [cbn; split; [lia|auto]|].
  destruct H as [H|H]; [congruence|]. destruct (IH H). cbn. split; [lia|auto].
Qed.
Lemma perm_in pm N j : Permutation pm (seq 0 N) -> (j < N)%nat -> In j pm.
Proof. intros H Hj. eapply Permutation_in; [apply Permutation_sym, H|]. apply in_seq. lia. Qed.
Lemma perm_len pm N : Permutation pm (seq 0 N) -> length pm = N.
Proof. intros H. apply Permutation_length in H. now rewrite seq_length in H. Qed.

Lemma spread_length {A} e (attr : list A) a0 : length (spread e attr a0) = e_dim e.
Proof. unfold spread. now rewrite map_length, seq_length. Qed.
Lemma nth_map_seq {A} (g : nat -> A) d0 N k : (k < N)%nat -> nth k (map g (seq 0 N)) d0 = g k.
Proof.
  intros H. rewrite (nth_indep _ d0 (g 0%nat)) by (rewrite map_length, seq_length; exact H).
  rewrite (map_nth g). rewrite seq_nth by exact H. reflexivity.
Qed.
Lemma nth_spread {A} e (attr : list A) a0 k : (k < e_dim e)%nat ->
  nth k (spread e attr a0) a0 = nth (nth k (perm e) 0%nat mod f_dim (e_fn e)) attr a0.
Proof. intros H. unfold spread. now rewrite nth_map_seq. Qed.

Lemma mod_copy i j dim : (j < dim)%nat -> ((i * dim + j) mod dim = j)%nat.
Proof. intros H. rewrite Nat.add_comm, Nat.mod_add by lia. now apply Nat.mod_small. Qed.
Lemma copy_index dim d i j : (i < d)%nat -> (j < dim)%nat -> (i * dim + j < dim * d)%nat.
Proof. intros. nia. Qed.

Section Enlarged.
  Variables (f : fn) (d : nat) (pm : list nat) (rows : list (list nat)) (ws : list Z).
  Hypothesis WF : proper_fn f.
  Hypothesis DR : draws f d pm rows ws.
  Hypothesis Hd : (1 <= d)%nat.
  Let e := enlarge f d pm rows ws.

  Lemma copy_location i j : (i < d)%nat -> (j < f_dim f)%nat ->
    let k := position (i * f_dim f + j) pm in
    (k < f_dim f * d)%nat /\ (nth k pm 0 mod f_dim f = j)%nat.
  Proof.
    intros Hi Hj k. pose proof (copy_index (f_dim f) d i j Hi Hj) as L.
    destruct (position_spec (i * f_dim f + j) pm) as (A & B); [eapply perm_in; [apply DR|exact L]|].
    fold k in A, B. rewrite (perm_len _ _ (dr_perm _ _ _ _ _ DR)) in A. split; [exact A|]. rewrite B. now apply mod_copy.
  Qed.
  Lemma domain_at x k j : in_domain (e_lo e) (e_up e) (e_type e) x -> (k < f_dim f * d)%nat ->
    (nth k pm 0 mod f_dim f = j)%nat ->
    nth j (f_lo f) 0 <= nth k x 0 <= nth j (f_up f) 0 /\ (nth j (f_type f) VR <> VR -> whole (nth k x 0)).
  Proof.
    intros (HL & H) Hk Hj. unfold e_lo, e_up, e_type in H. rewrite spread_length in H. specialize (H k Hk).
    rewrite !nth_spread in H by exact Hk. cbn [perm enlarge e_fn] in H. subst j. exact H.
  Qed.

  Lemma copy_in_domain x i : in_domain (e_lo e) (e_up e) (e_type e) x -> (i < d)%nat ->
    in_domain (f_lo f) (f_up f) (f_type f) (copy e x i).
  Proof.
    intros H Hi. unfold copy. cbn [e_fn e enlarge perm]. split; [now rewrite map_length, seq_length, wf_lo|].
    rewrite wf_lo by exact WF. intros j Hj. rewrite nth_map_seq by exact Hj.
    destruct (copy_location i j Hi Hj) as (A & B). exact (domain_at x _ j H A B).
  Qed.

  (** Most frequent value. *)
  Lemma bincount_nth zs k : (k < length (bincount zs))%nat ->
    nth k (bincount zs) 0 = inject_Z (Z.of_nat (length (filter (Z.eqb (Z.of_nat k)) zs))).
  Proof. unfold bincount. rewrite map_length, seq_length. intros H. now rewrite nth_map_seq. Qed.
  Lemma fold_max zs z : In z zs -> (z <= fold_right Z.max 0 zs)%Z.
  Proof. induction zs as [|y r IH]; cbn; [tauto|]. intros [->|H]; [lia|]. specialize (IH H). lia. Qed.
  Lemma most_frequent_in zs : zs <> [] -> (forall z, In z zs -> 0 <= z)%Z ->
    exists z, most_frequent zs = Some z /\ In z zs.
  Proof.
    intros Hn Hp. unfold most_frequent.
    destruct (existsb _ zs) eqn:E.
    { apply existsb_exists in E. destruct E as (z & Hz & Hlt). apply Z.ltb_lt in Hlt. specialize (Hp z Hz). lia. }
    eexists. split; [reflexivity|]. set (b := bincount zs).
    assert (Hb : b <> []) by (unfold b, bincount; discriminate).
    destruct (argmax_spec b Hb) as (A & B & _). set (k := argmax b) in *.
    destruct zs as [|z0 r]; [congruence|]. set (zs := z0 :: r) in *.
    assert (Hz0 : In z0 zs) by (left; reflexivity).
    assert (Lz : (Z.to_nat z0 < length b)%nat).
    { unfold b, bincount. rewrite map_length, seq_length. pose proof (fold_max zs z0 Hz0).
      pose proof (Hp z0 Hz0). lia. }
    specialize (B _ Lz). unfold b in A, B, Lz. rewrite !bincount_nth in B by assumption.
    rewrite <- Zle_Qle in B. rewrite (Z2Nat.id z0) in B by (now apply Hp).
    assert (C0 : (0 < length (filter (Z.eqb z0) zs))%nat).
    { assert (X : In z0 (filter (Z.eqb z0) zs)) by (apply filter_In; split; [exact Hz0|apply Z.eqb_refl]).
      destruct (filter (Z.eqb z0) zs); [destruct X|cbn; lia]. }
    destruct (filter (Z.eqb (Z.of_nat k)) zs) as [|y ys] eqn:Ef; [cbn [length] in B; lia|].
    assert (X : In y (filter (Z.eqb (Z.of_nat k)) zs)) by (rewrite Ef; left; reflexivity).
    apply filter_In in X. destruct X as (X1 & X2). apply Z.eqb_eq in X2. rewrite X2. exact X1.
  Qed.

  Lemma truncate_whole q : whole q -> inject_Z (truncate q) == q.
  Proof.
    intros (z & H). unfold truncate.
    assert (F : Qfloor q = z) by (rewrite (Qfloor_comp q (inject_Z z) H); apply Qfloor_Z).
    assert (G : Qceiling q = z) by (rewrite (Qceiling_comp q (inject_Z z) H); apply Qceiling_Z).
    destruct (Qle_bool 0 q); rewrite ?F, ?G; symmetry; exact H.
  Qed.

  Definition places (i : nat) : list nat :=
    filter (fun k => (nth k (perm e) 0 mod f_dim f =? i)%nat) (seq 0 (length (perm e))).
  Lemma places_spec i k : In k (places i) -> (k < f_dim f * d)%nat /\ (nth k pm 0 mod f_dim f = i)%nat.
  Proof.
    intros H. apply filter_In in H. destruct H as (H1 & H2). apply in_seq in H1. apply Nat.eqb_eq in H2.
    cbn [e enlarge perm] in *. rewrite (perm_len _ _ (dr_perm _ _ _ _ _ DR)) in H1. split; [lia|exact H2].
  Qed.
  Lemma places_some i : (i < f_dim f)%nat -> places i <> [].
  Proof.
    intros Hi. destruct (copy_location 0 i ltac:(lia) Hi) as (A & B). cbn [Nat.mul Nat.add] in A, B.
    assert (X : In (position i pm) (places i)).
    { apply filter_In. cbn [e enlarge perm]. rewrite (perm_len _ _ (dr_perm _ _ _ _ _ DR)).
      split; [apply in_seq; lia|now apply Nat.eqb_eq]. }
    destruct (places i); [destruct X|discriminate].
  Qed.

  Lemma coupled_one_domain x i : in_domain (e_lo e) (e_up e) (e_type e) x -> (i < f_dim f)%nat ->
    exists y, coupled_one e x i = Some y /\ nth i (f_lo f) 0 <= y <= nth i (f_up f) 0 /\
      (nth i (f_type f) VR <> VR -> whole y).
  Proof.
    intros H Hi. unfold coupled_one. cbn [e_fn e enlarge]. fold e.
    set (r := coupled_raw e x i). unfold nthT, nthQ. pose proof (wf_bounds f WF i Hi) as Hb.
    pose proof (clip1_bounds r (nth i (f_lo f) 0) (nth i (f_up f) 0) ltac:(lra)) as Hc.
    destruct (nth i (f_type f) VR) eqn:Et.
    - eexists. split; [reflexivity|]. split; [exact Hc|congruence].
    - eexists. split; [reflexivity|]. destruct (wf_int f WF i Hi ltac:(rewrite Et; discriminate)) as ((zl & El) & (zu & Eu)).
      set (c1 := clip1 r _ _) in *.
      split; [|intros _; eexists; reflexivity].
      rewrite El, Eu. rewrite <- !Zle_Qle.
      rewrite <- (rhe_Z zl (nth i (f_lo f) 0) El), <- (rhe_Z zu (nth i (f_up f) 0) Eu).
      split; apply rhe_mono; apply Hc.
    - change (filter _ (seq 0 (length (perm e)))) with (places i).
      assert (HP : forall k, In k (places i) -> nth i (f_lo f) 0 <= nth k x 0 <= nth i (f_up f) 0 /\ whole (nth k x 0)).
      { intros k Hk. destruct (places_spec i k Hk) as (A & B).
        destruct (domain_at x k i H A B) as (C1 & C2). split; [exact C1|]. apply C2. rewrite Et. discriminate. }
      destruct (most_frequent_in (map (fun k => truncate (nthQ x k)) (places i))) as (z & Ez & Hz).
      { pose proof (places_some i Hi). destruct (places i); [congruence|discriminate]. }
      { intros z Hz. apply in_map_iff in Hz. destruct Hz as (k & <- & Hk). destruct (HP k Hk) as (C1 & C2).
        pose proof (truncate_whole _ C2) as T. pose proof (wf_cat f WF i Hi Et) as Hc0.
        rewrite Zle_Qle. unfold nthQ. rewrite T. change (inject_Z 0) with 0. lra. }
      unfold nthQ in Ez, Hz. rewrite Ez. eexists. split; [reflexivity|].
      apply in_map_iff in Hz. destruct Hz as (k & <- & Hk). destruct (HP k Hk) as (C1 & C2).
      pose proof (truncate_whole _ C2) as T. split; [rewrite T; exact C1|]. intros _. eexists. reflexivity.
  Qed.

  Lemma all_some_map {A B} (g : A -> option B) (l : list A) :
    (forall a, In a l -> exists b, g a = Some b) ->
    exists bs, all_some (map g l) = Some bs /\ Forall2 (fun a b => g a = Some b) l bs.
  Proof.
    induction l as [|a r IH]; intros H; cbn; [exists []; split; [reflexivity|constructor]|].
    destruct (H a (or_introl eq_refl)) as (b & Eb). destruct IH as (bs & E & F); [intros; apply H; now right|].
    rewrite Eb, E. cbn. exists (b :: bs). split; [reflexivity|now constructor].
  Qed.
  Lemma Forall2_nth_seq {B} (R : nat -> B -> Prop) (bs : list B) b0 : forall s N,
    Forall2 R (seq s N) bs -> length bs = N /\ forall j, (j < N)%nat -> R (s + j)%nat (nth j bs b0).
  Proof.
    induction bs as [|b r IH]; intros s N H; destruct N as [|N]; cbn in H; inversion H; subst; [split; [reflexivity|lia]|].
    destruct (IH _ _ H5) as (L & K). split; [cbn; lia|]. intros [|j] Hj; cbn; [rewrite Nat.add_0_r; assumption|].
    rewrite <- Nat.add_succ_comm. apply K. lia.
  Qed.
  Lemma coupled_domain x : in_domain (e_lo e) (e_up e) (e_type e) x ->
    exists y, coupled e x = Some y /\ in_domain (f_lo f) (f_up f) (f_type f) y.
  Proof.
    intros H. unfold coupled. cbn [e_fn e enlarge]. fold e.
    destruct (all_some_map (coupled_one e x) (seq 0 (f_dim f))) as (y & E & F).
    { intros i Hi. apply in_seq in Hi. destruct (coupled_one_domain x i H ltac:(lia)) as (z & Ez & _). eauto. }
    exists y. split; [exact E|]. destruct (Forall2_nth_seq _ y 0 0 _ F) as (L & K).
    split; [rewrite wf_lo by exact WF; exact L|]. rewrite wf_lo by exact WF. intros j Hj. specialize (K j Hj). cbn in K.
    destruct (coupled_one_domain x j H Hj) as (z & Ez & Hz). rewrite K in Ez. injection Ez as ->. exact Hz.
  Qed.

  (** ** Values *)
  Lemma sumQ_le (l m : list Q) : Forall2 Qle l m -> sumQ l <= sumQ m.
  Proof. induction 1 as [|a b l m H _ IH]; cbn; [lra|]. unfold sumQ in IH. lra. Qed.
  Lemma sumQ_eq (l m : list Q) : Forall2 Qeq l m -> sumQ l == sumQ m.
  Proof. induction 1 as [|a b l m H _ IH]; cbn; [lra|]. unfold sumQ in IH. lra. Qed.
  Lemma sumQ_scale {A} (g : A -> Q) v l : sumQ (map (fun a => g a * v) l) == sumQ (map g l) * v.
  Proof. induction l as [|a r IH]; cbn; [ring|]. unfold sumQ in IH. rewrite IH. ring. Qed.

  Lemma ws_sum_pos : (0 < fold_right Z.add 0 ws)%Z.
  Proof.
    pose proof (dr_range _ _ _ _ _ DR) as H. pose proof (dr_weights _ _ _ _ _ DR) as L.
    destruct ws as [|w r]; [cbn in L; lia|]. inversion H as [|w' r' Hw Hr]; subst. cbn.
    assert (0 <= fold_right Z.add 0 r)%Z; [|lia]. clear - Hr. induction r as [|y r IH]; cbn; [lia|].
    inversion Hr; subst. specialize (IH H2). lia.
  Qed.
  Lemma weights_scaled (t : Q) l : ~ t == 0 ->
    sumQ (map (fun w => (6#10) * inject_Z w / t) l) == (6#10) * inject_Z (fold_right Z.add 0%Z l) / t.
  Proof.
    intros Ht. induction l as [|w r IH]; cbn; [change (inject_Z 0) with 0; field; exact Ht|].
    unfold sumQ in IH. rewrite IH. rewrite inject_Z_plus. field. exact Ht.
  Qed.
  Lemma weight_len : length (weight e) = S d.
  Proof.
    cbn [e enlarge weight]. unfold weights. rewrite app_length, map_length. cbn.
    rewrite (dr_weights _ _ _ _ _ DR). lia.
  Qed.
  Lemma weight_sum : sumQ (map (nthQ (weight e)) (seq 0 d)) + nthQ (weight e) d == 1.
  Proof.
    pose proof ws_sum_pos as P. pose proof (dr_weights _ _ _ _ _ DR) as L.
    assert (NZ : ~ inject_Z (fold_right Z.add 0%Z ws) == 0).
    { intros E. change 0 with (inject_Z 0) in E. unfold Qeq in E. cbn in E. lia. }
    cbn [e enlarge weight]. unfold weights. cbv zeta.
    set (g := fun w => (6#10) * inject_Z w / inject_Z (fold_right Z.add 0%Z ws)).
    assert (A : map (nthQ (map g ws ++ [4#10])) (seq 0 d) = map g ws).
    { apply nth_ext with (d := 0) (d' := 0).
      - now rewrite !map_length, seq_length.
      - intros k Hk. rewrite map_length, seq_length in Hk. rewrite nth_map_seq by exact Hk.
        unfold nthQ. rewrite app_nth1 by (rewrite map_length; lia). reflexivity. }
    rewrite A. unfold g at 1. rewrite (weights_scaled _ ws NZ).
    unfold nthQ. rewrite app_nth2 by (rewrite map_length; lia). rewrite map_length, L, Nat.sub_diag. cbn [nth].
    field. exact NZ.
  Qed.
  Lemma weight_nonneg i : 0 <= nthQ (weight e) i.
  Proof.
    pose proof ws_sum_pos as P. cbn [e enlarge weight]. unfold weights, nthQ. cbv zeta.
    assert (HF : Forall (fun q => 0 <= q) (map (fun w => (6#10) * inject_Z w / inject_Z (fold_right Z.add 0%Z ws)) ws ++ [4#10])).
    { apply Forall_app. split; [|repeat constructor; discriminate]. apply Forall_forall. intros q Hq.
      apply in_map_iff in Hq. destruct Hq as (w & <- & Hw).
      pose proof (dr_range _ _ _ _ _ DR) as H. rewrite Forall_forall in H. specialize (H w Hw).
      apply Qle_shift_div_l; [change 0 with (inject_Z 0); rewrite <- Zlt_Qlt; exact P|].
      rewrite Qmult_0_l. assert (0 <= inject_Z w) by (change 0 with (inject_Z 0); rewrite <- Zle_Qle; lia). lra. }
    destruct (nth_in_or_default i (map (fun w => (6#10) * inject_Z w / inject_Z (fold_right Z.add 0%Z ws)) ws ++ [4#10]) 0) as [H|H].
    - rewrite Forall_forall in HF. now apply HF.
    - rewrite H. lra.
  Qed.

  Lemma mapQ_le {A} (g h : A -> Q) l : (forall a, In a l -> g a <= h a) -> sumQ (map g l) <= sumQ (map h l).
  Proof.
    intros H. apply sumQ_le. induction l as [|a r IH]; cbn; constructor; [apply H; now left|].
    apply IH. intros; apply H; now right.
  Qed.
  Lemma mapQ_eq {A} (g h : A -> Q) l : (forall a, In a l -> g a == h a) -> sumQ (map g l) == sumQ (map h l).
  Proof.
    intros H. apply sumQ_eq. induction l as [|a r IH]; cbn; constructor; [apply H; now left|].
    apply IH. intros; apply H; now right.
  Qed.

  Lemma enlarged_lower_bound x : in_domain (e_lo e) (e_up e) (e_type e) x ->
    (forall p, in_domain (f_lo f) (f_up f) (f_type f) p -> f_optval f <= f_eval f p) ->
    exists v, evaluate_enlarged e x = Some v /\ e_optval e <= v.
  Proof.
    intros H HM. unfold evaluate_enlarged. pose proof H as (HL & _). unfold e_lo in HL. rewrite spread_length in HL.
    rewrite HL, Nat.eqb_refl. destruct (coupled_domain x H) as (y & Ey & Hy). rewrite Ey. cbn [option_map].
    eexists. split; [reflexivity|]. cbn [e_optval e_fn e enlarge e_mult]. fold e.
    rewrite weight_len. replace (S d - 1)%nat with d by lia.
    pose proof weight_sum as W.
    assert (S1 : sumQ (map (nthQ (weight e)) (seq 0 d)) * f_optval f <=
                 sumQ (map (fun i => nthQ (weight e) i * f_eval f (copy e x i)) (seq 0 d))).
    { rewrite <- (sumQ_scale (nthQ (weight e)) (f_optval f)). apply mapQ_le. intros i Hi. apply in_seq in Hi.
      rewrite !(Qmult_comm (nthQ (weight e) i)).
      apply Qmult_le_compat_r; [apply HM, copy_in_domain; [exact H|lia]|apply weight_nonneg]. }
    assert (S2 : nthQ (weight e) d * f_optval f <= nthQ (weight e) d * f_eval f y).
    { rewrite !(Qmult_comm (nthQ (weight e) d)). apply Qmult_le_compat_r; [now apply HM|apply weight_nonneg]. }
    assert (S3 : e_optval e == sumQ (map (nthQ (weight e)) (seq 0 d)) * f_optval f + nthQ (weight e) d * f_optval f).
    { rewrite <- Qmult_plus_distr_l, W. change (e_optval e) with (f_optval f). ring. }
    rewrite S3.
    apply Qplus_le_compat; assumption.
  Qed.

  (** ** The optimum *)
  Lemma opt_at k j : (k < f_dim f * d)%nat -> (nth k pm 0 mod f_dim f = j)%nat -> nth k (e_opt e) 0 = nth j (f_opt f) 0.
  Proof.
    intros Hk Hj. unfold e_opt. rewrite nth_spread by exact Hk. cbn [perm e enlarge e_fn]. now rewrite Hj.
  Qed.
  Lemma opt_in_domain : in_domain (e_lo e) (e_up e) (e_type e) (e_opt e).
  Proof.
    unfold in_domain, e_lo, e_up, e_type, e_opt. rewrite !spread_length. split; [reflexivity|].
    intros k Hk. rewrite !nth_spread by exact Hk. cbn [e enlarge e_fn perm].
    destruct (wf_opt f WF) as (_ & H). apply H. rewrite wf_lo by exact WF. apply Nat.mod_upper_bound.
    pose proof (wf_dim f WF). lia.
  Qed.
  Lemma copy_opt i : (i < d)%nat -> copy e (e_opt e) i = f_opt f.
  Proof.
    intros Hi. unfold copy. cbn [e_fn e enlarge perm]. fold e.
    assert (LO : length (f_opt f) = f_dim f).
    { destruct (wf_opt f WF) as (L & _). rewrite L. apply WF. }
    apply nth_ext with (d := 0) (d' := 0); [now rewrite map_length, seq_length|].
    intros j Hj. rewrite map_length, seq_length in Hj. rewrite nth_map_seq by exact Hj.
    destruct (copy_location i j Hi Hj) as (A & B). exact (opt_at _ j A B).
  Qed.
  Lemma row_in i v : (i < f_dim f)%nat -> In v (nth i rows []) -> (v < f_dim f * d)%nat.
  Proof.
    intros Hi Hv. assert (X : In v (concat rows)).
    { apply in_concat. exists (nth i rows []). split; [apply nth_In; rewrite (dr_rows _ _ _ _ _ DR); exact Hi|exact Hv]. }
    eapply Permutation_in in X; [|apply DR]. apply in_seq in X. lia.
  Qed.
  Lemma row_sum_opt i : (i < f_dim f)%nat ->
    sumQ (map (nthQ (e_opt e)) (nth i rows [])) = coupled_sum (f_dim f) pm (f_opt f) (nth i rows []).
  Proof.
    intros Hi. unfold coupled_sum. f_equal. apply map_ext_in. intros v Hv. unfold nthQ.
    apply opt_at; [now apply (row_in i v)|reflexivity].
  Qed.
  Lemma row_nonempty i : (i < f_dim f)%nat -> nth i rows [] <> [].
  Proof.
    intros Hi E. pose proof (dr_row _ _ _ _ _ DR) as F. rewrite Forall_forall in F.
    specialize (F (nth i rows []) ltac:(apply nth_In; rewrite (dr_rows _ _ _ _ _ DR); exact Hi)).
    rewrite E in F. cbn in F. lia.
  Qed.
  Lemma coupled_bounds i : (i < f_dim f)%nat ->
    coupled_sum (f_dim f) pm (f_lo f) (nth i rows []) < coupled_sum (f_dim f) pm (f_up f) (nth i rows []).
  Proof.
    intros Hi. pose proof (row_nonempty i Hi) as Hn. unfold coupled_sum.
    assert (HB : forall v, nthQ (f_lo f) (nth v pm 0%nat mod f_dim f) < nthQ (f_up f) (nth v pm 0%nat mod f_dim f)).
    { intros v. apply (wf_bounds f WF). apply Nat.mod_upper_bound. pose proof (wf_dim f WF). lia. }
    destruct (nth i rows []) as [|v r]; [congruence|]. cbn. specialize (HB v) as Hv.
    assert (X : sumQ (map (fun v => nthQ (f_lo f) (nth v pm 0%nat mod f_dim f)) r) <=
                sumQ (map (fun v => nthQ (f_up f) (nth v pm 0%nat mod f_dim f)) r)).
    { apply mapQ_le. intros a _. specialize (HB a). lra. }
    unfold sumQ in X. lra.
  Qed.
  Lemma map2_nth {A B D} (g : A -> B -> D) da db dd : forall l m i, (i < length l)%nat -> (i < length m)%nat ->
    nth i (map2 g l m) dd = g (nth i l da) (nth i m db).
  Proof.
    induction l as [|a r IH]; intros m i Hl Hm; [cbn in Hl; lia|]. destruct m as [|b m]; [cbn in Hm; lia|].
    destruct i as [|i]; cbn; [reflexivity|]. apply IH; cbn in *; lia.
  Qed.
  Lemma map2_len {A B D} (g : A -> B -> D) : forall l m, length l = length m -> length (map2 g l m) = length m.
  Proof. induction l as [|a r IH]; intros [|b m] H; cbn in *; auto; try discriminate. Qed.
  Lemma data_at i : (i < f_dim f)%nat ->
    let c := couple_one f pm (nth i rows []) i in
    nth i (extra e) (0, 0) = fst (fst c) /\ nthQ (factor e) i = snd (fst c) /\ nthQ (shift e) i = snd c.
  Proof.
    intros Hi. cbv zeta. cbn [e enlarge extra factor shift]. set (l := map2 _ _ _).
    assert (Ll : length l = f_dim f).
    { unfold l. rewrite map2_len; rewrite seq_length; [reflexivity|]. apply (dr_rows _ _ _ _ _ DR). }
    assert (N : nth i l ((0, 0), 0, 0) = couple_one f pm (nth i rows []) i).
    { unfold l. rewrite (map2_nth _ [] 0%nat) by (rewrite ?seq_length, ?(dr_rows _ _ _ _ _ DR); exact Hi).
      now rewrite seq_nth. }
    unfold nthQ. rewrite <- N.
    split; [|split].
    - rewrite (nth_indep _ _ (fst (fst ((0, 0), 0, 0 : Q)))) by (rewrite map_length; lia). now rewrite (map_nth (fun x => fst (fst x))).
    - rewrite (nth_indep _ _ (snd (fst ((0, 0), 0, 0 : Q)))) by (rewrite map_length; lia). now rewrite (map_nth (fun x => snd (fst x))).
    - rewrite (nth_indep _ _ (snd ((0, 0), 0, 0 : Q))) by (rewrite map_length; lia). now rewrite (map_nth snd).
  Qed.
  Lemma coupled_raw_opt i : (i < f_dim f)%nat -> coupled_raw e (e_opt e) i == nthQ (f_opt f) i.
  Proof.
    intros Hi. unfold coupled_raw. cbv zeta. destruct (data_at i Hi) as (-> & -> & ->).
    cbn [coupling e enlarge e_fn]. fold e. rewrite (row_sum_opt i Hi).
    pose proof (coupled_bounds i Hi) as HB. unfold couple_one. cbv zeta.
    set (lb := coupled_sum (f_dim f) pm (f_lo f) (nth i rows [])) in *.
    set (ub := coupled_sum (f_dim f) pm (f_up f) (nth i rows [])) in *.
    set (op := coupled_sum (f_dim f) pm (f_opt f) (nth i rows [])) in *.
    pose proof (wf_bounds f WF i Hi) as Hb. fold (nthQ (f_lo f) i) in Hb. fold (nthQ (f_up f) i) in Hb.
    set (lo := nthQ (f_lo f) i) in *. set (up := nthQ (f_up f) i) in *. set (o := nthQ (f_opt f) i) in *.
    assert (D1 : ~ ub - lb == 0) by lra. assert (D2 : ~ up - lo == 0) by lra.
    destruct (Qeq_bool ((op - lb) / (ub - lb)) 0) eqn:E1; cbn [negb andb].
    - apply Qeq_bool_iff in E1. assert (X1 : op - lb == 0).
      { transitivity (((op - lb) / (ub - lb)) * (ub - lb)); [field; exact D1|]. rewrite E1. ring. }
      destruct (Qeq_bool ((o - lo) / (up - lo)) 0) eqn:E2; cbn [fst snd].
      + apply Qeq_bool_iff in E2. assert (X2 : o - lo == 0).
        { transitivity (((o - lo) / (up - lo)) * (up - lo)); [field; exact D2|]. rewrite E2. ring. }
        pose proof (Q.le_max_r ub (op + 1)). assert (D3 : ~ Qmax ub (op + 1) - op == 0) by lra.
        transitivity lo; [field; exact D3|lra].
      + transitivity (lo + (o - lo) + 1 * (op - lb) / (ub - lb) * (up - lo)); [reflexivity|]. rewrite X1. field. exact D1.
    - apply Qeq_bool_neq in E1.
      assert (X1 : ~ op - lb == 0).
      { intros X. apply E1. rewrite X. field. exact D1. }
      destruct (Qeq_bool ((o - lo) / (up - lo)) 0) eqn:E2; cbn [negb fst snd].
      + apply Qeq_bool_iff in E2. assert (X2 : o - lo == 0).
        { transitivity (((o - lo) / (up - lo)) * (up - lo)); [field; exact D2|]. rewrite E2. ring. }
        pose proof (Q.le_max_r ub (op + 1)). assert (D3 : ~ Qmax ub (op + 1) - op == 0) by lra.
        transitivity lo; [field; exact D3|lra].
      + field. split; [exact D1|]. split; [exact D2|]. exact X1.
  Qed.
  Lemma coupled_one_opt i : (i < f_dim f)%nat ->
    exists y, coupled_one e (e_opt e) i = Some y /\ y == nth i (f_opt f) 0.
  Proof.
    intros Hi. destruct (wf_opt f WF) as (_ & HO). rewrite wf_lo in HO by exact WF. destruct (HO i Hi) as (HO1 & HO2).
    destruct (coupled_one_domain (e_opt e) i opt_in_domain Hi) as (y & Ey & Hy1 & Hy2). exists y. split; [exact Ey|].
    pose proof (coupled_raw_opt i Hi) as HR. unfold coupled_one in Ey. cbn [e_fn e enlarge] in Ey. fold e in Ey.
    set (r := coupled_raw e (e_opt e) i) in *. unfold nthT, nthQ in *.
    assert (HC : clip1 r (nth i (f_lo f) 0) (nth i (f_up f) 0) == nth i (f_opt f) 0).
    { rewrite clip1_id; [exact HR| |]; rewrite HR; apply HO1. }
    destruct (nth i (f_type f) VR) eqn:Et.
    - injection Ey as <-. exact HC.
    - injection Ey as <-. destruct (HO2 ltac:(discriminate)) as (z & Hz). rewrite Hz.
      rewrite (rhe_Z z); [reflexivity|]. rewrite HC. exact Hz.
    - change (filter _ (seq 0 (length (perm e)))) with (places i) in Ey.
      assert (HP : forall k, In k (places i) -> nth k (e_opt e) 0 = nth i (f_opt f) 0).
      { intros k Hk. destruct (places_spec i k Hk). now apply opt_at. }
      destruct (most_frequent_in (map (fun k => truncate (nthQ (e_opt e) k)) (places i))) as (z & Ez & Hz).
      { pose proof (places_some i Hi). destruct (places i); [congruence|discriminate]. }
      { intros z Hz. apply in_map_iff in Hz. destruct Hz as (k & <- & Hk). unfold nthQ. rewrite (HP k Hk).
        pose proof (truncate_whole _ (HO2 ltac:(discriminate))) as T. pose proof (wf_cat f WF i Hi Et) as Hc0.
        rewrite Zle_Qle. rewrite T. change (inject_Z 0) with 0. lra. }
      unfold nthQ in Ez, Hz. rewrite Ez in Ey. cbn in Ey. injection Ey as <-.
      apply in_map_iff in Hz. destruct Hz as (k & <- & Hk). rewrite (HP k Hk).
      apply truncate_whole. apply HO2. discriminate.
  Qed.
  Lemma coupled_opt : exists y, coupled e (e_opt e) = Some y /\ Forall2 Qeq y (f_opt f).
  Proof.
    unfold coupled. cbn [e_fn e enlarge]. fold e.
    destruct (all_some_map (coupled_one e (e_opt e)) (seq 0 (f_dim f))) as (y & E & F).
    { intros i Hi. apply in_seq in Hi. destruct (coupled_one_opt i ltac:(lia)) as (z & Ez & _). eauto. }
    exists y. split; [exact E|]. destruct (Forall2_nth_seq _ y 0 0 _ F) as (L & K).
    assert (LO : length (f_opt f) = f_dim f).
    { destruct (wf_opt f WF) as (L0 & _). rewrite L0. apply WF. }
    assert (HE : forall j, (j < f_dim f)%nat -> nth j y 0 == nth j (f_opt f) 0).
    { intros j Hj. specialize (K j Hj). cbn in K. destruct (coupled_one_opt j Hj) as (z & Ez & Hz). rewrite K in Ez.
      injection Ez as ->. exact Hz. }
    clear - L LO HE. revert L LO HE. generalize (f_dim f) as N. generalize (f_opt f) as o. clear.
    induction y as [|a y IH]; intros [|b o] N L LO HE; cbn in *; try (subst; discriminate); constructor.
    - apply (HE 0%nat). lia.
    - apply (IH o (N - 1)%nat); [lia|lia|]. intros j Hj. apply (HE (S j)). lia.
  Qed.
  Lemma enlarged_optimum : f_eval f (f_opt f) == f_optval f ->
    exists v, evaluate_enlarged e (e_opt e) = Some v /\ v == e_optval e.
  Proof.
    intros HV. unfold evaluate_enlarged. assert (HL : length (e_opt e) = e_dim e) by apply spread_length.
    rewrite HL, Nat.eqb_refl. destruct coupled_opt as (y & Ey & Hy). rewrite Ey. cbn [option_map].
    eexists. split; [reflexivity|]. cbn [e_fn e enlarge e_mult]. fold e.
    rewrite weight_len. replace (S d - 1)%nat with d by lia.
    rewrite (wf_eval f WF _ _ Hy), HV.
    rewrite (mapQ_eq _ (fun i => nthQ (weight e) i * f_optval f) (seq 0 d)).
    - rewrite (sumQ_scale (nthQ (weight e)) (f_optval f)). rewrite <- Qmult_plus_distr_l.
      rewrite weight_sum. unfold e_optval. cbn [e_fn e enlarge]. ring.
    - intros i Hi. apply in_seq in Hi. rewrite copy_opt by lia. now rewrite HV.
  Qed.
End Enlarged.
