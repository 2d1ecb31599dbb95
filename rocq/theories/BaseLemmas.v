(** * Lemmas about the base vocabulary *)
From Verif Require Export ModelBase.
From Coq Require Export Lia Lqa.

(** ** Boolean comparisons *)
Lemma Qltb_lt a b : Qltb a b = true <-> (a < b)%Q.
Proof.
  unfold Qltb. rewrite negb_true_iff. split.
  - intros H. destruct (Qlt_le_dec a b) as [?|Hle]; [assumption|].
    apply Qle_bool_iff in Hle. congruence.
  - intros H. destruct (Qle_bool b a) eqn:E; [|reflexivity].
    apply Qle_bool_iff in E. lra.
Qed.
Lemma Qltb_ge a b : Qltb a b = false <-> (b <= a)%Q.
Proof.
  unfold Qltb. rewrite negb_false_iff. apply Qle_bool_iff.
Qed.
Lemma Qle_bool_false a b : Qle_bool a b = false <-> (b < a)%Q.
Proof.
  rewrite <- (negb_involutive (Qle_bool a b)). fold (Qltb b a).
  rewrite negb_false_iff. apply Qltb_lt.
Qed.

Lemma Qle_bool_true a b : Qle_bool a b = true <-> (a <= b)%Q.
Proof. apply Qle_bool_iff. Qed.

(** Turn boolean comparisons of rationals into propositions everywhere. *)
Ltac qb :=
  repeat match goal with
  | H : Qltb _ _ = true |- _ => apply Qltb_lt in H
  | H : Qltb _ _ = false |- _ => apply Qltb_ge in H
  | H : Qle_bool _ _ = true |- _ => apply Qle_bool_true in H
  | H : Qle_bool _ _ = false |- _ => apply Qle_bool_false in H
  | H : Qeq_bool _ _ = true |- _ => apply Qeq_bool_iff in H
  | H : Qeq_bool _ _ = false |- _ => apply Qeq_bool_neq in H
  | |- Qltb _ _ = true => apply Qltb_lt
  | |- Qltb _ _ = false => apply Qltb_ge
  | |- Qle_bool _ _ = true => apply Qle_bool_true
  | |- Qle_bool _ _ = false => apply Qle_bool_false
  end.

(** ** argmin / argmax *)
(** Position [i] is the first one holding the least value of [l]. *)
Definition first_min (l : list Q) (i : nat) : Prop :=
  (i < length l)%nat /\
  (forall j, (j < length l)%nat -> (nth i l 0 <= nth j l 0)%Q) /\
  (forall j, (j < i)%nat -> (nth i l 0 < nth j l 0)%Q).
Definition first_max (l : list Q) (i : nat) : Prop :=
  (i < length l)%nat /\
  (forall j, (j < length l)%nat -> (nth j l 0 <= nth i l 0)%Q) /\
  (forall j, (j < i)%nat -> (nth j l 0 < nth i l 0)%Q).

Lemma argmin_aux_spec l : forall pre best bi,
  first_min pre bi -> nth bi pre 0%Q = best ->
  first_min (pre ++ l) (argmin_aux best bi (length pre) l).
Proof.
  induction l as [|x r IH]; intros pre best bi Hf Hb; simpl.
  - rewrite app_nil_r. exact Hf.
  - assert (Hlen : S (length pre) = length (pre ++ [x]))
      by (rewrite app_length; simpl; lia).
    replace (pre ++ x :: r) with ((pre ++ [x]) ++ r)
      by (rewrite <- app_assoc; reflexivity).
    destruct Hf as (Hi & Hmin & Hfirst). subst best.
    destruct (Qltb x (nth bi pre 0%Q)) eqn:E; qb.
    + rewrite Hlen. apply IH.
      * assert (Hx : nth (length pre) (pre ++ [x]) 0%Q = x)
          by (rewrite app_nth2, Nat.sub_diag; [reflexivity|lia]).
        split; [rewrite app_length; simpl; lia|]. split.
        -- intros j Hj. rewrite app_length in Hj; simpl in Hj. rewrite Hx.
           destruct (Nat.eq_dec j (length pre)) as [->|Hne]; [rewrite Hx; lra|].
           rewrite app_nth1 by lia. specialize (Hmin j ltac:(lia)). lra.
        -- intros j Hj. rewrite Hx. rewrite app_nth1 by lia.
           specialize (Hmin j ltac:(lia)). lra.
      * rewrite app_nth2, Nat.sub_diag; [reflexivity|lia].
    + rewrite Hlen. apply IH.
      * split; [rewrite app_length; lia|]. split.
        -- intros j Hj. rewrite (app_nth1 _ _ _ Hi).
           rewrite app_length in Hj; simpl in Hj.
           destruct (Nat.eq_dec j (length pre)) as [->|Hne].
           ++ rewrite app_nth2, Nat.sub_diag by lia. simpl. lra.
           ++ rewrite app_nth1 by lia. apply Hmin; lia.
        -- intros j Hj. rewrite (app_nth1 _ _ _ Hi), app_nth1 by lia. auto.
      * rewrite app_nth1 by lia. reflexivity.
Qed.

Lemma argmin_spec l : l <> [] -> first_min l (argmin l).
Proof.
  destruct l as [|x r]; [congruence|intros _]. unfold argmin.
  change (x :: r) with ([x] ++ r). change 1%nat with (length [x]).
  apply argmin_aux_spec; [|reflexivity].
  split; [simpl; lia|]. split; intros j Hj; simpl in Hj; [|lia].
  replace j with 0%nat by lia. lra.
Qed.

Lemma argmax_aux_spec l : forall pre best bi,
  first_max pre bi -> nth bi pre 0%Q = best ->
  first_max (pre ++ l) (argmax_aux best bi (length pre) l).
Proof.
  induction l as [|x r IH]; intros pre best bi Hf Hb; simpl.
  - rewrite app_nil_r. exact Hf.
  - assert (Hlen : S (length pre) = length (pre ++ [x]))
      by (rewrite app_length; simpl; lia).
    replace (pre ++ x :: r) with ((pre ++ [x]) ++ r)
      by (rewrite <- app_assoc; reflexivity).
    destruct Hf as (Hi & Hmin & Hfirst). subst best.
    destruct (Qltb (nth bi pre 0%Q) x) eqn:E; qb.
    + rewrite Hlen. apply IH.
      * assert (Hx : nth (length pre) (pre ++ [x]) 0%Q = x)
          by (rewrite app_nth2, Nat.sub_diag; [reflexivity|lia]).
        split; [rewrite app_length; simpl; lia|]. split.
        -- intros j Hj. rewrite app_length in Hj; simpl in Hj. rewrite Hx.
           destruct (Nat.eq_dec j (length pre)) as [->|Hne]; [rewrite Hx; lra|].
           rewrite app_nth1 by lia. specialize (Hmin j ltac:(lia)). lra.
        -- intros j Hj. rewrite Hx. rewrite app_nth1 by lia.
           specialize (Hmin j ltac:(lia)). lra.
      * rewrite app_nth2, Nat.sub_diag; [reflexivity|lia].
    + rewrite Hlen. apply IH.
      * split; [rewrite app_length; lia|]. split.
        -- intros j Hj. rewrite (app_nth1 _ _ _ Hi).
           rewrite app_length in Hj; simpl in Hj.
           destruct (Nat.eq_dec j (length pre)) as [->|Hne].
           ++ rewrite app_nth2, Nat.sub_diag by lia. simpl. lra.
           ++ rewrite app_nth1 by lia. apply Hmin; lia.
        -- intros j Hj. rewrite (app_nth1 _ _ _ Hi), app_nth1 by lia. auto.
      * rewrite app_nth1 by lia. reflexivity.
Qed.

Lemma argmax_spec l : l <> [] -> first_max l (argmax l).
Proof.
  destruct l as [|x r]; [congruence|intros _]. unfold argmax.
  change (x :: r) with ([x] ++ r). change 1%nat with (length [x]).
  apply argmax_aux_spec; [|reflexivity].
  split; [simpl; lia|]. split; intros j Hj; simpl in Hj; [|lia].
  replace j with 0%nat by lia. lra.
Qed.

Lemma first_min_unique l i j : first_min l i -> first_min l j -> i = j.
Proof.
  intros (Hi & Hmi & Hfi) (Hj & Hmj & Hfj).
  destruct (Nat.lt_trichotomy i j) as [H|[H|H]]; [|exact H|].
  - specialize (Hfj i H). specialize (Hmi j Hj). lra.
  - specialize (Hfi j H). specialize (Hmj i Hi). lra.
Qed.

Lemma first_min_In l i x : first_min l i -> In x l -> (nth i l 0 <= x)%Q.
Proof.
  intros (_ & Hm & _) Hx. apply In_nth with (d := 0%Q) in Hx.
  destruct Hx as (j & Hj & <-). auto.
Qed.

(** Appending one value. *)
Lemma first_min_snoc_lt l i x : first_min l i -> (x < nth i l 0)%Q ->
  first_min (l ++ [x]) (length l).
Proof.
  intros (Hi & Hm & Hf) Hx.
  assert (Hn : nth (length l) (l ++ [x]) 0%Q = x)
    by (rewrite app_nth2, Nat.sub_diag; [reflexivity|lia]).
  split; [rewrite app_length; simpl; lia|]. rewrite Hn. split; intros j Hj.
  - rewrite app_length in Hj; simpl in Hj.
    destruct (Nat.eq_dec j (length l)) as [->|]; [rewrite Hn; lra|].
    rewrite app_nth1 by lia. specialize (Hm j ltac:(lia)). lra.
  - rewrite app_nth1 by lia. specialize (Hm j ltac:(lia)). lra.
Qed.
Lemma first_min_snoc_ge l i x : first_min l i -> (nth i l 0 <= x)%Q ->
  first_min (l ++ [x]) i.
Proof.
  intros (Hi & Hm & Hf) Hx.
  split; [rewrite app_length; simpl; lia|].
  rewrite (app_nth1 _ _ _ Hi). split; intros j Hj.
  - rewrite app_length in Hj; simpl in Hj.
    destruct (Nat.eq_dec j (length l)) as [->|].
    + rewrite app_nth2, Nat.sub_diag by lia. exact Hx.
    + rewrite app_nth1 by lia. apply Hm; lia.
  - rewrite app_nth1 by lia. auto.
Qed.

(** Concatenation of two lists. *)
Lemma first_min_app_lt l m i j : first_min l i -> first_min m j ->
  (nth j m 0 < nth i l 0)%Q -> first_min (l ++ m) (length l + j).
Proof.
  intros (Hi & Hmi & Hfi) (Hj & Hmj & Hfj) Hlt.
  assert (Hn : nth (length l + j) (l ++ m) 0%Q = nth j m 0%Q)
    by (rewrite app_nth2 by lia; f_equal; lia).
  split; [rewrite app_length; lia|]. rewrite Hn. split; intros k Hk.
  - rewrite app_length in Hk. destruct (Nat.lt_ge_cases k (length l)).
    + rewrite app_nth1 by lia. specialize (Hmi k ltac:(lia)). lra.
    + rewrite app_nth2 by lia. apply Hmj; lia.
  - destruct (Nat.lt_ge_cases k (length l)).
    + rewrite app_nth1 by lia. specialize (Hmi k ltac:(lia)). lra.
    + rewrite app_nth2 by lia. apply Hfj; lia.
Qed.
Lemma first_min_app_ge l m i : first_min l i ->
  (forall x, In x m -> (nth i l 0 <= x)%Q) -> first_min (l ++ m) i.
Proof.
  intros (Hi & Hmi & Hfi) Hge.
  split; [rewrite app_length; lia|]. rewrite (app_nth1 _ _ _ Hi). split; intros k Hk.
  - rewrite app_length in Hk. destruct (Nat.lt_ge_cases k (length l)).
    + rewrite app_nth1 by lia. apply Hmi; lia.
    + rewrite app_nth2 by lia. apply Hge. apply nth_In. lia.
  - rewrite app_nth1 by lia. auto.
Qed.

Lemma first_min_nil i : ~ first_min [] i.
Proof. intros (H & _). simpl in H. lia. Qed.

(** ** delete / set / insert *)
Lemma delete_at_length {A} i (l : list A) : (i < length l)%nat ->
  length (delete_at i l) = (length l - 1)%nat.
Proof.
  revert i; induction l as [|x r IH]; intros [|i] H; simpl in *; try lia.
  rewrite IH by lia. destruct r; simpl in *; lia.
Qed.
Lemma delete_at_spec {A} i (l : list A) :
  delete_at i l = firstn i l ++ skipn (S i) l.
Proof.
  revert i; induction l as [|x r IH]; intros [|i]; try reflexivity.
  simpl delete_at. rewrite IH. reflexivity.
Qed.
Lemma delete_at_app_r {A} (a b : list A) i :
  delete_at (length a + i) (a ++ b) = a ++ delete_at i b.
Proof. induction a as [|x a IH]; simpl; [reflexivity|]. now rewrite IH. Qed.
Lemma delete_at_map {A B} (f : A -> B) i l :
  delete_at i (map f l) = map f (delete_at i l).
Proof.
  revert i; induction l as [|x r IH]; intros [|i]; simpl; try reflexivity.
  now rewrite IH.
Qed.
Lemma delete_at_incl {A} i (l : list A) x : In x (delete_at i l) -> In x l.
Proof.
  revert i; induction l as [|y r IH]; intros [|i] H; simpl in *; auto.
  destruct H as [->|H]; auto. right. eapply IH; eauto.
Qed.
Lemma set_at_length {A} i v (l : list A) : length (set_at i v l) = length l.
Proof. revert i; induction l as [|x r IH]; intros [|i]; simpl; auto. Qed.
Lemma set_at_In {A} i v (l : list A) x : In x (set_at i v l) -> x = v \/ In x l.
Proof.
  revert i; induction l as [|y r IH]; intros [|i] H; simpl in *; auto.
  - destruct H; subst; auto.
  - destruct H as [->|H]; auto. apply IH in H. tauto.
Qed.
Lemma nth_set_at {A} i v (l : list A) d : (i < length l)%nat ->
  nth i (set_at i v l) d = v.
Proof. revert i; induction l as [|y r IH]; intros [|i] H; simpl in *; try lia; auto. apply IH; lia. Qed.
Lemma nth_set_at_ne {A} i j v (l : list A) d : i <> j ->
  nth j (set_at i v l) d = nth j l d.
Proof.
  revert i j; induction l as [|y r IH]; intros [|i] [|j] H; simpl; auto; try lia.
Qed.

(** ** map2 / map3 *)
Lemma map3_length {A B C D} (f : A -> B -> C -> D) l : forall m k,
  length m = length l -> length k = length l -> length (map3 f l m k) = length l.
Proof.
  induction l as [|a l IH]; intros [|b m] [|c k] H1 H2; simpl in *; try lia; auto.
Qed.
Lemma nth_map3 {A B C D} (f : A -> B -> C -> D) l : forall m k i da db dc dd,
  (i < length l)%nat -> length m = length l -> length k = length l ->
  nth i (map3 f l m k) dd = f (nth i l da) (nth i m db) (nth i k dc).
Proof.
  induction l as [|a l IH]; intros [|b m] [|c k] [|i] da db dc dd H H1 H2;
    simpl in *; try lia; auto. apply IH; lia.
Qed.
Lemma clip_length p lo up : length lo = length p -> length up = length p ->
  length (clip p lo up) = length p.
Proof. intros. unfold clip. apply map3_length; assumption. Qed.

(** ** sqdist *)
Lemma Qsq_nonneg x : (0 <= x * x)%Q.
Proof.
  destruct (Qlt_le_dec x 0) as [H|H].
  - setoid_replace (x * x)%Q with ((- x) * (- x))%Q by ring.
    apply Qmult_le_0_compat; lra.
  - apply Qmult_le_0_compat; assumption.
Qed.
Lemma sqdist_nonneg p : forall q, (0 <= sqdist p q)%Q.
Proof.
  induction p as [|a p IH]; intros [|b q]; simpl; try lra.
  specialize (IH q). pose proof (Qsq_nonneg (a - b)). lra.
Qed.
Lemma sqdist_sym p : forall q, (sqdist p q == sqdist q p)%Q.
Proof.
  induction p as [|a p IH]; intros [|b q]; simpl; try reflexivity.
  rewrite IH. ring.
Qed.
Lemma sqdist_refl p : (sqdist p p == 0)%Q.
Proof. induction p as [|a p IH]; simpl; [reflexivity|]. rewrite IH. ring. Qed.
Lemma sqdist_zero_iff p : forall q, length p = length q ->
  ((sqdist p q == 0)%Q <-> Forall2 Qeq p q).
Proof.
  induction p as [|a p IH]; intros [|b q] H; simpl in *; try lia.
  - split; intros; [constructor|reflexivity].
  - specialize (IH q ltac:(lia)). pose proof (sqdist_nonneg p q) as Hn.
    pose proof (Qsq_nonneg (a - b)) as Hs.
    split.
    + intros H0. assert (H1 : ((a - b) * (a - b) == 0)%Q) by lra.
      assert (H2 : (sqdist p q == 0)%Q) by lra.
      constructor; [|now apply IH].
      destruct (Qeq_dec (a - b) 0) as [E|E]; [lra|].
      exfalso. apply Qmult_integral in H1. destruct H1; contradiction.
    + intros H0. inversion H0 as [|? ? ? ? Hab Hpq]; subst.
      apply IH in Hpq. rewrite Hpq, Hab. ring.
Qed.

Lemma dist_le_iff p q d : dist_le p q d = true <-> (0 <= d /\ sqdist p q <= d * d)%Q.
Proof. unfold dist_le. rewrite andb_true_iff, !Qle_bool_true. tauto. Qed.
Lemma dist_lt_iff p q d : dist_lt p q d = true <-> (0 < d /\ sqdist p q < d * d)%Q.
Proof. unfold dist_lt. rewrite andb_true_iff, !Qltb_lt. tauto. Qed.
Lemma near_true d p ps : near d p ps = true <->
  exists q, In q ps /\ (0 <= d /\ sqdist p q <= d * d)%Q.
Proof.
  unfold near. rewrite existsb_exists. split; intros (q & Hq & H); exists q;
  (split; [assumption|]); now apply dist_le_iff.
Qed.
Lemma near_false d p ps : (0 <= d)%Q ->
  (near d p ps = false <-> forall q, In q ps -> (d * d < sqdist p q)%Q).
Proof.
  intros Hd. split.
  - intros H q Hq. destruct (Qlt_le_dec (d * d) (sqdist p q)) as [?|Hle]; [assumption|].
    assert (near d p ps = true) by (apply near_true; exists q; auto). congruence.
  - intros H. destruct (near d p ps) eqn:E; [|reflexivity].
    apply near_true in E. destruct E as (q & Hq & _ & Hle).
    specialize (H q Hq). lra.
Qed.

(** The distance of a point to a set containing it is 0: [near] holds. *)
Lemma near_self d p ps : (0 <= d)%Q -> In p ps -> near d p ps = true.
Proof.
  intros Hd Hp. apply near_true. exists p. split; [assumption|]. split; [assumption|].
  rewrite sqdist_refl. apply Qsq_nonneg.
Qed.

(** ** clip *)
Lemma clip1_bounds x lo up : (lo <= up)%Q -> (lo <= clip1 x lo up <= up)%Q.
Proof.
  intros H. unfold clip1. split.
  - apply Q.min_glb; [apply Q.le_max_r|assumption].
  - apply Q.le_min_r.
Qed.
Lemma clip1_id x lo up : (lo <= x)%Q -> (x <= up)%Q -> (clip1 x lo up == x)%Q.
Proof.
  intros H1 H2. unfold clip1. rewrite (Q.max_l x lo H1). apply Q.min_l. exact H2.
Qed.
Lemma clip1_cases x lo up :
  (clip1 x lo up = x \/ clip1 x lo up = lo \/ clip1 x lo up = up)%Q.
Proof.
  unfold clip1, Qmin, Qmax, GenericMinMax.gmin, GenericMinMax.gmax.
  destruct (x ?= lo)%Q eqn:E1; match goal with
  | |- context [(?a ?= ?b)%Q] => destruct (a ?= b)%Q end; auto.
Qed.

(** ** Coordinates: pointwise order *)
Definition in_box (p lo up : point) : Prop :=
  length p = length lo /\ length p = length up /\
  forall j, (j < length p)%nat -> (nth j lo 0 <= nth j p 0 <= nth j up 0)%Q.
Definition box_ok (lo up : point) : Prop :=
  length lo = length up /\
  forall j, (j < length lo)%nat -> (nth j lo 0 <= nth j up 0)%Q.

Lemma clip_in_box p lo up : box_ok lo up -> length p = length lo ->
  in_box (clip p lo up) lo up.
Proof.
  intros (Hl & Hle) Hp.
  assert (Hc : length (clip p lo up) = length p) by (apply clip_length; lia).
  split; [lia|]. split; [lia|]. intros j Hj. unfold clip.
  rewrite (nth_map3 clip1 p lo up j 0%Q 0%Q 0%Q) by lia.
  apply clip1_bounds. apply Hle. lia.
Qed.

(** ** push_window *)
Lemma push_window_length {A} m (l : list A) x : (length l <= m)%nat ->
  (length (push_window m l x) <= m)%nat.
Proof.
  intros H. unfold push_window. rewrite skipn_length, app_length. simpl. lia.
Qed.

Lemma Forall2_length {A B} (R : A -> B -> Prop) l m : Forall2 R l m -> length l = length m.
Proof. induction 1; simpl; auto. Qed.
Lemma Forall2_nth {A B} (R : A -> B -> Prop) l m da db : Forall2 R l m ->
  forall i, (i < length l)%nat -> R (nth i l da) (nth i m db).
Proof.
  induction 1; intros [|i] Hi; simpl in *; try lia; auto. apply IHForall2; lia.
Qed.
Lemma Forall2_In_r {A B} (R : A -> B -> Prop) l m y : Forall2 R l m -> In y m ->
  exists x, In x l /\ R x y.
Proof.
  induction 1; intros Hy; simpl in *; [tauto|]. destruct Hy as [<-|Hy]; [eauto|].
  destruct (IHForall2 Hy) as (z & ? & ?); eauto.
Qed.
Lemma Forall2_In_l {A B} (R : A -> B -> Prop) l m x : Forall2 R l m -> In x l ->
  exists y, In y m /\ R x y.
Proof.
  induction 1; intros Hy; simpl in *; [tauto|]. destruct Hy as [<-|Hy]; [eauto|].
  destruct (IHForall2 Hy) as (z & ? & ?); eauto.
Qed.
