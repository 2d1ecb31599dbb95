(** * Categorical encoding: active entries, round trip, compressed bounds and integer lists. *)
From Verif Require Export CatProofs.
From Verif Require Import BaseLemmas.
From Coq Require Import Lia Lqa Sorted.
Open Scope Q_scope.

Definition active (p : point) (ex : list nat) (k : nat) : Prop := (k < length ex)%nat /\ nth (nth k ex 0%nat) p 0 == 1.

Lemma first_active_some p ex : forall off k, active p ex k -> (forall k', active p ex k' -> k' = k) ->
  first_active p ex off = Some (off + k)%nat.
Proof.
  induction ex as [|e r IH]; intros off k [Hk Ha] Hu; cbn [length] in Hk; [lia|]. cbn [first_active].
  destruct (Qeq_bool (nth e p 0) 1) eqn:B.
  - apply Qeq_bool_iff in B. assert (0%nat = k) by (apply Hu; split; [cbn; lia|exact B]). subst. f_equal. lia.
  - destruct k as [|k]. { cbn in Ha. apply Qeq_bool_iff in Ha. congruence. }
    rewrite (IH (S off) k).
    + f_equal. lia.
    + split; [lia|exact Ha].
    + intros k' [H1 H2]. assert (S k' = S k) by (apply Hu; split; [cbn; lia|exact H2]). lia.
Qed.
Lemma last_active_none p ex : forall off acc, (forall k, ~ active p ex k) -> last_active p ex off acc = acc.
Proof.
  induction ex as [|e r IH]; intros off acc H; cbn [last_active]; [reflexivity|].
  destruct (Qeq_bool (nth e p 0) 1) eqn:B.
  - exfalso. apply Qeq_bool_iff in B. apply (H 0%nat). split; [cbn; lia|exact B].
  - apply IH. intros k [H1 H2]. apply (H (S k)). split; [cbn; lia|exact H2].
Qed.
Lemma first_active_none p ex : forall off, (forall k, ~ active p ex k) -> first_active p ex off = None.
Proof.
  induction ex as [|e r IH]; intros off H; cbn [first_active]; [reflexivity|].
  destruct (Qeq_bool (nth e p 0) 1) eqn:B.
  - exfalso. apply Qeq_bool_iff in B. apply (H 0%nat). split; [cbn; lia|exact B].
  - apply IH. intros k [H1 H2]. apply (H (S k)). split; [cbn; lia|exact H2].
Qed.
Lemma last_active_some p ex : forall off acc k, active p ex k -> (forall k', active p ex k' -> k' = k) ->
  last_active p ex off acc = Some (off + k)%nat.
Proof.
  induction ex as [|e r IH]; intros off acc k [Hk Ha] Hu; cbn [length] in Hk; [lia|]. cbn [last_active].
  destruct (Qeq_bool (nth e p 0) 1) eqn:B.
  - apply Qeq_bool_iff in B. assert (E : 0%nat = k) by (apply Hu; split; [cbn; lia|exact B]). subst k.
    rewrite last_active_none; [f_equal; lia|]. intros k' [H1 H2].
    assert (S k' = 0%nat) by (apply Hu; split; [cbn; lia|exact H2]). lia.
  - destruct k as [|k]. { cbn in Ha. apply Qeq_bool_iff in Ha. congruence. }
    rewrite (IH (S off) _ k).
    + f_equal. lia.
    + split; [lia|exact Ha].
    + intros k' [H1 H2]. assert (S k' = S k) by (apply Hu; split; [cbn; lia|exact H2]). lia.
Qed.
(** First active entry in general. *)
Lemma first_active_iff p ex : forall off j, first_active p ex off = Some j <->
  exists k, j = (off + k)%nat /\ active p ex k /\ forall k', (k' < k)%nat -> ~ active p ex k'.
Proof.
  induction ex as [|e r IH]; intros off j; cbn [first_active].
  - split; [discriminate|]. intros (k & _ & [H _] & _). cbn in H. lia.
  - destruct (Qeq_bool (nth e p 0) 1) eqn:B.
    + apply Qeq_bool_iff in B. split.
      * intros H. injection H as <-. exists 0%nat. split; [lia|]. split; [split; [cbn; lia|exact B]|lia].
      * intros (k & -> & _ & Hm). destruct k as [|k]; [f_equal; lia|]. exfalso. apply (Hm 0%nat); [lia|]. split; [cbn; lia|exact B].
    + rewrite IH. split; intros (k & -> & [H1 H2] & Hm).
      * exists (S k). split; [lia|]. split; [split; [cbn; lia|exact H2]|].
        intros [|k'] Hk' [H3 H4]; [cbn in H4; apply Qeq_bool_iff in H4; congruence|].
        apply (Hm k'); [lia|]. split; [cbn in H3; lia|exact H4].
      * destruct k as [|k]; [cbn in H2; apply Qeq_bool_iff in H2; congruence|].
        exists k. split; [lia|]. split; [split; [cbn in H1; lia|exact H2]|].
        intros k' Hk' [H3 H4]. apply (Hm (S k')); [lia|]. split; [cbn; lia|exact H4].
Qed.

(** At most one active entry per block: the two decoders agree. *)
Lemma decode_agree s p : (forall i l ex, In (i, l, ex) (s_expansion s) ->
    forall k k', active p ex k -> active p ex k' -> k = k') ->
  decode_objfun s p = returned_point s p.
Proof.
  intros H. unfold decode_objfun, returned_point, compress, decode_with.
  destruct (s_expansion s) as [|e0 er] eqn:E; [reflexivity|]. rewrite <- E. rewrite <- E in H. clear E.
  generalize (put (s_noncat s) (firstn (length (s_noncat s)) p) (repeat 0 (length (s_cat s) + length (s_noncat s)))).
  induction (s_expansion s) as [|[[i l] ex] r IH]; intros acc; cbn [fold_left]; [reflexivity|].
  rewrite IH by (intros; eapply H; [right; eassumption|eassumption|eassumption]). f_equal.
  unfold write_cat.
  assert (P : first_active p ex 0 = last_active p ex 0 None).
  { destruct (first_active p ex 0) as [j|] eqn:F.
    - apply first_active_iff in F. destruct F as (k & -> & Ha & _). symmetry. apply last_active_some; [exact Ha|].
      intros k' Hk'. apply (H i l ex (or_introl eq_refl)); assumption.
    - symmetry. apply last_active_none. intros k Ha.
      rewrite (first_active_some p ex 0 k Ha) in F; [discriminate|].
      intros k' Hk'. apply (H i l ex (or_introl eq_refl)); assumption. }
  rewrite P. reflexivity.
Qed.

(** *** Expansion *)
Lemma expand_block_length v l n : length (expand_block v l n) = n.
Proof. unfold expand_block. rewrite map_length, seq_length. reflexivity. Qed.
Lemma expand_block_nth v l n j : (j < n)%nat ->
  nth j (expand_block v l n) 0 = if Qeq_bool v (l + inject_Z (Z.of_nat j)) then 1 else 0.
Proof.
  intros H. unfold expand_block.
  rewrite (nth_indep _ 0 ((fun j => if Qeq_bool v (l + inject_Z (Z.of_nat j)) then 1 else 0) 0%nat)) by (rewrite map_length, seq_length; exact H).
  rewrite (map_nth (fun j => if Qeq_bool v (l + inject_Z (Z.of_nat j)) then 1 else 0)). rewrite seq_nth by exact H. reflexivity.
Qed.
Definition expand_row (x : point) (e : nat * Q * list nat) : point :=
  let '(i, l, ex) := e in expand_block (nth i x 0) l (length ex).
Lemma expand_row_length x e : length (expand_row x e) = length (snd e).
Proof. destruct e as [[i l] ex]. apply expand_block_length. Qed.
Lemma concat_blocks_length lo up x cats : forall cur,
  length (concat (map (expand_row x) (blocks cur cats lo up))) = (blocks_end cur cats lo up - cur)%nat.
Proof.
  induction cats as [|i r IH]; intros cur; cbn [blocks map concat blocks_end]; [cbn; lia|].
  rewrite app_length, IH. unfold expand_row. rewrite expand_block_length, seq_length.
  destruct (blocks_spec lo up r (cur + block_size (nth i lo 0) (nth i up 0))) as (_ & B & _). lia.
Qed.
Lemma concat_blocks_nth lo up x cats : forall cur i l ex j, In (i, l, ex) (blocks cur cats lo up) -> (j < length ex)%nat ->
  (cur <= nth j ex 0%nat)%nat /\
  nth (nth j ex 0%nat - cur) (concat (map (expand_row x) (blocks cur cats lo up))) 0 = nth j (expand_block (nth i x 0) l (length ex)) 0.
Proof.
  induction cats as [|c r IH]; intros cur i l ex j Hin Hj; cbn [blocks map concat] in *; [destruct Hin|].
  set (sz := block_size (nth c lo 0) (nth c up 0)) in *.
  destruct Hin as [H|H].
  - injection H as <- <- <-. rewrite seq_length in Hj. rewrite seq_nth by exact Hj. split; [lia|].
    replace (cur + j - cur)%nat with j by lia. unfold expand_row. rewrite app_nth1; [reflexivity|].
    rewrite expand_block_length. rewrite seq_length. exact Hj.
  - destruct (IH (cur + sz)%nat i l ex j H Hj) as [A B]. split; [lia|].
    assert (L : length (expand_row x (c, nth c lo 0, seq cur sz)) = sz) by (rewrite expand_row_length; cbn [snd]; apply seq_length).
    rewrite app_nth2; rewrite L; [|lia]. replace (nth j ex 0%nat - cur - sz)%nat with (nth j ex 0%nat - (cur + sz))%nat by lia. exact B.
Qed.
Lemma expand_rows s x : expand s x = take 0 (s_noncat s) x ++ concat (map (expand_row x) (s_expansion s)).
Proof. unfold expand. reflexivity. Qed.
Lemma expand_spec s lo up ty x : encoded s lo up ty ->
  length (expand s x) = s_dim s /\
  (forall k, (k < length (s_noncat s))%nat -> nth k (expand s x) 0 = nth (nth k (s_noncat s) 0%nat) x 0) /\
  (forall i l ex j, In (i, l, ex) (s_expansion s) -> (j < length ex)%nat ->
     nth (nth j ex 0%nat) (expand s x) 0 = if Qeq_bool (nth i x 0) (l + inject_Z (Z.of_nat j)) then 1 else 0).
Proof.
  intros E. pose proof (en_exp _ _ _ _ E) as EX. pose proof (en_total _ _ _ _ E) as ET.
  destruct (blocks_spec lo up (s_cat s) (length (s_noncat s))) as (_ & B2 & _ & _).
  rewrite expand_rows. split; [|split].
  - rewrite app_length, take_length, EX, concat_blocks_length. lia.
  - intros k Hk. rewrite app_nth1 by (rewrite take_length; exact Hk). apply nth_take. exact Hk.
  - intros i l ex j Hin Hj. rewrite EX in Hin.
    destruct (concat_blocks_nth lo up x (s_cat s) (length (s_noncat s)) i l ex j Hin Hj) as [A B].
    rewrite app_nth2; rewrite take_length; [|exact A]. rewrite EX, B. apply expand_block_nth. exact Hj.
Qed.

Lemma inject_inj a b : inject_Z a == inject_Z b -> a = b.
Proof. intros H. unfold Qeq, inject_Z in H. cbn in H. lia. Qed.
(** Value of a categorical variable in its range. *)
Definition cat_value (l u v : Q) : Prop := exists z : Z, v == l + inject_Z z /\ l <= v /\ v <= u.
Lemma cat_value_index l u v : cat_value l u v -> exists j, (j < block_size l u)%nat /\ v == l + inject_Z (Z.of_nat j).
Proof.
  intros (z & Hz & H1 & H2).
  assert (Z0 : (0 <= z)%Z). { assert (0 <= inject_Z z) by lra. unfold Qle, inject_Z in H. cbn in H. lia. }
  exists (Z.to_nat z). rewrite Z2Nat.id by exact Z0. split; [|exact Hz].
  unfold block_size, trunc.
  assert (P : 0 <= u - l + 1) by lra. apply Qle_bool_iff in P. rewrite P.
  assert (F : (z + 1 <= Qfloor (u - l + 1))%Z).
  { rewrite <- (Qfloor_Z (z + 1)). apply Qfloor_resp_le. rewrite inject_Z_plus. change (inject_Z 1) with 1. lra. }
  lia.
Qed.
Definition in_range (s : setup) (up : point) (x : point) : Prop :=
  forall i l ex, In (i, l, ex) (s_expansion s) -> cat_value l (nth i up 0) (nth i x 0).
Lemma expand_active s lo up ty x : encoded s lo up ty -> in_range s up x ->
  forall i l ex, In (i, l, ex) (s_expansion s) ->
  exists k, active (expand s x) ex k /\ (forall k', active (expand s x) ex k' -> k' = k) /\
    nth i x 0 == l + inject_Z (Z.of_nat k).
Proof.
  intros E R i l ex Hin. destruct (expand_spec s lo up ty x E) as (_ & _ & X).
  pose proof (R i l ex Hin) as V. apply cat_value_index in V. destruct V as (j & Hj & Hv).
  assert (L : length ex = block_size l (nth i up 0)).
  { rewrite (en_exp _ _ _ _ E) in Hin. destruct (blocks_spec lo up (s_cat s) (length (s_noncat s))) as (_ & _ & _ & B).
    destruct (B i l ex Hin) as (_ & -> & st & _ & _ & ->). apply seq_length. }
  exists j. split; [|split; [|exact Hv]].
  - split; [lia|]. rewrite (X i l ex j Hin) by lia. apply Qeq_bool_iff in Hv. rewrite Hv. reflexivity.
  - intros k' [H1 H2]. rewrite (X i l ex k' Hin H1) in H2.
    destruct (Qeq_bool (nth i x 0) (l + inject_Z (Z.of_nat k'))) eqn:B; [|lra].
    apply Qeq_bool_iff in B. assert (inject_Z (Z.of_nat k') == inject_Z (Z.of_nat j)) by lra.
    apply inject_inj in H. lia.
Qed.
Lemma round_trip_with pick s lo up ty x :
  (forall p ex k, active p ex k -> (forall k', active p ex k' -> k' = k) -> pick p ex = Some k) ->
  encoded s lo up ty -> length x = length lo -> in_range s up x ->
  length (decode_with pick s (expand s x)) = length x /\
  (forall i, (i < length x)%nat -> nth i (decode_with pick s (expand s x)) 0 == nth i x 0).
Proof.
  intros Hpick E Lx R.
  destruct (expand_spec s lo up ty x E) as (XL & XN & XC).
  destruct (decode_spec pick s lo up ty (expand s x) E XL) as (DL & DN & DC).
  split; [lia|]. intros i Hi. destruct (noncat_cat_partition s lo up ty E) as (_ & _ & _ & NN & NC).
  destruct (is_cat (nth i (map3 demote ty lo up) VReal)) eqn:B.
  - assert (Hc : In i (s_cat s)) by (apply NC; split; [lia|exact B]).
    destruct (blocks_spec lo up (s_cat s) (length (s_noncat s))) as (B1 & _ & _ & _).
    rewrite <- (en_exp _ _ _ _ E) in B1. rewrite <- B1 in Hc. apply in_map_iff in Hc.
    destruct Hc as ([[i' l] ex] & Hi' & Hin). cbn [fst] in Hi'. subst i'.
    rewrite (DC i l ex Hin). destruct (expand_active s lo up ty x E R i l ex Hin) as (k & A1 & A2 & A3).
    rewrite (Hpick _ _ k A1 A2). symmetry. exact A3.
  - assert (Hc : In i (s_noncat s)) by (apply NN; split; [lia|exact B]).
    destruct (In_nth _ _ 0%nat Hc) as (k & Hk & <-). rewrite (DN k Hk), (XN k Hk). reflexivity.
Qed.

(** *** Compressed bounds *)
Lemma compress_bounds_spec s lo up ty bounds : encoded s lo up ty -> length bounds = s_dim s ->
  length (compress_bounds s bounds) = length lo /\
  (forall k, (k < length (s_noncat s))%nat -> nth (nth k (s_noncat s) 0%nat) (compress_bounds s bounds) 0 = nth k bounds 0) /\
  (forall i l ex, In (i, l, ex) (s_expansion s) -> nth i (compress_bounds s bounds) 0 =
     if Qeq_bool (nth (hd 0%nat ex) bounds 0) 0 then l else l + inject_Z (Z.of_nat (length ex)) - 1).
Proof.
  intros E Hb. destruct (noncat_cat_partition s lo up ty E) as (N1 & N2 & NL & NN & NC).
  pose proof (en_exp _ _ _ _ E) as EX. pose proof (en_total _ _ _ _ E) as ET.
  destruct (blocks_spec lo up (s_cat s) (length (s_noncat s))) as (B1 & B2 & _ & _). rewrite <- EX in B1.
  unfold compress_bounds.
  set (F := fun (acc : list Q) (e : nat * Q * list nat) => let '(i, l, ex) := e in
      set_at i (if Qeq_bool (nth (hd 0%nat ex) bounds 0) 0 then l else l + inject_Z (Z.of_nat (length ex)) - 1) acc).
  assert (FL : forall es acc, length (fold_left F es acc) = length acc).
  { induction es as [|[[i l] ex] r IH]; intros acc; cbn [fold_left]; [reflexivity|]. rewrite IH. unfold F. apply set_at_length. }
  assert (FO : forall es acc i, ~ In i (map (fun e => fst (fst e)) es) -> nth i (fold_left F es acc) 0 = nth i acc 0).
  { induction es as [|[[j l] ex] r IH]; intros acc i Hi; cbn [fold_left]; [reflexivity|].
    rewrite IH by (intros H; apply Hi; right; exact H). unfold F. apply nth_set_at_ne. intros ->. apply Hi. left; reflexivity. }
  assert (FS : forall es acc i l ex, NoDup (map (fun e => fst (fst e)) es) -> In (i, l, ex) es ->
     (forall j, In j (map (fun e => fst (fst e)) es) -> (j < length acc)%nat) ->
     nth i (fold_left F es acc) 0 = if Qeq_bool (nth (hd 0%nat ex) bounds 0) 0 then l else l + inject_Z (Z.of_nat (length ex)) - 1).
  { induction es as [|[[j l'] ex'] r IH]; intros acc i l ex Hn Hin Hbd; [destruct Hin|].
    cbn [map fst] in Hn. inversion Hn as [|? ? Hnj Hn']; subst. cbn [fold_left]. destruct Hin as [H|H].
    - injection H as -> -> ->. rewrite FO by exact Hnj. unfold F. apply nth_set_at. apply Hbd. left; reflexivity.
    - apply IH; [exact Hn'|exact H|]. intros k Hk. unfold F. rewrite set_at_length. apply Hbd. right; exact Hk. }
  split; [rewrite FL, put_length, repeat_length; exact NL|]. split.
  - intros k Hk. assert (Hin : In (nth k (s_noncat s) 0%nat) (s_noncat s)) by (apply nth_In; exact Hk).
    rewrite FO.
    + rewrite put_same; [|exact N1| | |exact Hk].
      * rewrite <- (firstn_skipn (length (s_noncat s)) bounds) at 2. rewrite app_nth1; [reflexivity|].
        rewrite firstn_length. lia.
      * rewrite firstn_length. lia.
      * intros i Hi. rewrite repeat_length. apply NN in Hi. lia.
    + rewrite B1. intros H. apply NC in H. apply NN in Hin. destruct H, Hin; congruence.
  - intros i l ex Hin. apply FS; [rewrite B1; exact N2|exact Hin|].
    rewrite B1. intros j Hj. rewrite put_length, repeat_length. apply NC in Hj. lia.
Qed.

(** *** Compressed integer list *)
Definition shift (c k : nat) : nat := if (c <=? k)%nat then S k else k.
Lemma insert_before_app x a b : (forall y, In y a -> (y < x)%nat) -> (forall y, In y b -> (x < y)%nat) ->
  insert_before_larger x (a ++ b) = a ++ x :: b.
Proof.
  intros Ha Hb. induction a as [|y a IH]; cbn [app insert_before_larger].
  - destruct b as [|y b]; cbn [insert_before_larger]; [reflexivity|]. specialize (Hb y (or_introl eq_refl)).
    destruct (Nat.ltb_spec x y); [reflexivity|lia].
  - specialize (Ha y (or_introl eq_refl)) as Hy. destruct (Nat.ltb_spec x y); [lia|]. f_equal. apply IH.
    intros z Hz. apply Ha. right; exact Hz.
Qed.
Lemma insert_index_app c a b : (forall y, In y a -> (y < c)%nat) -> (forall y, In y b -> (c <= y)%nat) ->
  insert_index (a ++ b) c = a ++ c :: map S b.
Proof.
  intros Ha Hb. unfold insert_index. rewrite map_app.
  assert (Ea : map (fun k => if (c <=? k)%nat then S k else k) a = a).
  { induction a as [|y a IH]; cbn [map]; [reflexivity|]. rewrite IH by (intros z Hz; apply Ha; right; exact Hz).
    specialize (Ha y (or_introl eq_refl)). destruct (Nat.leb_spec c y); [lia|reflexivity]. }
  assert (Eb : map (fun k => if (c <=? k)%nat then S k else k) b = map S b).
  { apply map_ext_in. intros y Hy. specialize (Hb y Hy). destruct (Nat.leb_spec c y); [reflexivity|lia]. }
  rewrite Ea, Eb.
  assert (Hb' : forall y, In y (map S b) -> (c < y)%nat).
  { intros y Hy. apply in_map_iff in Hy. destruct Hy as (z & <- & Hz). specialize (Hb z Hz). lia. }
  destruct b as [|y b].
  - cbn [map]. rewrite app_nil_r. destruct a as [|y a]; [reflexivity|].
    assert (L : (last (y :: a) 0 < c)%nat).
    { apply Ha. generalize y. clear. induction a as [|z a IH]; intros y; [left; reflexivity|]. right. apply IH. }
    apply Nat.ltb_lt in L. rewrite L. reflexivity.
  - assert (NE : a ++ map S (y :: b) <> []) by (destruct a; discriminate).
    assert (L : (c < last (a ++ map S (y :: b)) 0)%nat).
    { apply Hb'. cbn [map]. clear. induction a as [|z a IH]; cbn [app].
      - generalize (S y). induction b as [|w b IH]; intros v; [left; reflexivity|]. right. apply IH.
      - assert (H : last (z :: a ++ S y :: map S b) 0%nat = last (a ++ S y :: map S b) 0%nat)
          by (destruct (a ++ S y :: map S b) eqn:E; [destruct a; discriminate|reflexivity]).
        rewrite H. exact IH. }
    destruct (a ++ map S (y :: b)) eqn:E; [congruence|]. rewrite <- E in *.
    destruct (Nat.ltb_spec (last (a ++ map S (y :: b)) 0%nat) c); [lia|].
    apply insert_before_app; [exact Ha|exact Hb'].
Qed.
(** Dropping the categorical entries of a type list. *)
Definition droppos (ty : list vtype) : list vtype := filter (fun t => negb (is_cat t)) ty.
Lemma where_cat_split ty : where_ is_cat ty <> [] ->
  exists t1 t2, ty = t1 ++ VCat :: t2 /\ where_ is_cat t2 = [] .
Proof.
  induction ty as [|t r IH]; intros H; [cbn in H; congruence|].
  destruct (where_ is_cat r) as [|c cs] eqn:E.
  - destruct (is_cat t) eqn:B.
    + destruct t; try discriminate. exists [], r. split; [reflexivity|exact E].
    + exfalso. apply H. unfold where_ in *. cbn. rewrite B, where_from_shift, E. reflexivity.
  - destruct IH as (t1 & t2 & -> & E2); [discriminate|]. exists (t :: t1), t2. split; [reflexivity|exact E2].
Qed.
Lemma filter_nocat t2 : where_ is_cat t2 = [] -> filter (fun t => negb (is_cat t)) t2 = t2.
Proof.
  intros H. assert (G : forall x, In x t2 -> is_cat x = false).
  { intros x Hx. destruct (is_cat x) eqn:B; [|reflexivity]. exfalso. destruct (In_nth _ _ VReal Hx) as (k & Hk & Ek).
    assert (X : In k (where_ is_cat t2)) by (apply (where_In _ VReal); split; [exact Hk|rewrite Ek; exact B]).
    rewrite H in X. destruct X. }
  clear H. induction t2 as [|t r IH]; cbn; [reflexivity|]. rewrite (G t) by (left; reflexivity). cbn. f_equal.
  apply IH. intros x Hx; apply G; right; exact Hx.
Qed.
Lemma insert_all ty :
  fold_left insert_index (where_ is_cat ty) (where_ is_int (droppos ty)) = where_ (fun t => negb (is_real t)) ty.
Proof.
  remember (length (where_ is_cat ty)) as m eqn:Em. revert ty Em. induction m as [|m IH]; intros ty Em.
  - assert (E : where_ is_cat ty = []) by (destruct (where_ is_cat ty); [reflexivity|discriminate]).
    rewrite E. cbn [fold_left]. unfold droppos. rewrite filter_nocat by exact E.
    unfold where_. apply where_from_ext. intros x Hx. destruct x; try reflexivity.
    exfalso. destruct (In_nth _ _ VReal Hx) as (k & Hk & Ek).
    assert (X : In k (where_ is_cat ty)) by (apply (where_In _ VReal); split; [exact Hk|rewrite Ek; reflexivity]).
    rewrite E in X. destruct X.
  - destruct (where_cat_split ty) as (t1 & t2 & -> & E2); [intros X; rewrite X in Em; discriminate|].
    assert (EC : where_ is_cat (t1 ++ VCat :: t2) = where_ is_cat t1 ++ [length t1]).
    { unfold where_ in *. rewrite where_app. cbn [where_from is_cat Nat.add].
      assert (X : forall off, where_from is_cat off t2 = []).
      { induction off as [|off IHo]; [exact E2|]. rewrite where_from_shift, IHo. reflexivity. }
      rewrite X. reflexivity. }
    assert (EC' : where_ is_cat (t1 ++ t2) = where_ is_cat t1).
    { unfold where_ in *. rewrite where_app.
      assert (X : forall off, where_from is_cat off t2 = []).
      { induction off as [|off IHo]; [exact E2|]. rewrite where_from_shift, IHo. reflexivity. }
      rewrite X. apply app_nil_r. }
    assert (ED : droppos (t1 ++ VCat :: t2) = droppos (t1 ++ t2)).
    { unfold droppos. rewrite !filter_app. reflexivity. }
    rewrite EC, ED, fold_left_app. rewrite <- EC'. rewrite (IH (t1 ++ t2)).
    2: { rewrite EC'. rewrite EC, app_length in Em. cbn in Em. lia. }
    cbn [fold_left]. unfold where_. rewrite !where_app. cbn [where_from is_real negb Nat.add].
    rewrite insert_index_app.
    + rewrite where_from_shift. reflexivity.
    + intros y Hy. apply (where_from_In _ VReal) in Hy. lia.
    + intros y Hy. apply (where_from_In _ VReal) in Hy. lia.
Qed.
Lemma compress_ints_spec s lo up ty : encoded s lo up ty -> 
  compress_ints s (s_ints s) = where_ (fun t => negb (is_real t)) ty.
Proof.
  intros E. pose proof (en_ints _ _ _ _ E) as EI. pose proof (en_exp _ _ _ _ E) as EX.
  destruct (en_len _ _ _ _ E) as [HU HT].
  destruct (blocks_spec lo up (s_cat s) (length (s_noncat s))) as (B1 & B2 & _ & _). rewrite <- EX in B1.
  set (ty' := map3 demote ty lo up) in *.
  assert (HL : length ty' = length lo) by (unfold ty'; rewrite map3_len3; lia).
  assert (F : forall es l, fold_left (fun l (e : nat * Q * list nat) => insert_index l (fst (fst e))) es l = fold_left insert_index (map (fun e => fst (fst e)) es) l).
  { induction es as [|e r IH]; intros l; cbn; [reflexivity|]. apply IH. }
  unfold compress_ints. rewrite F, B1. rewrite (en_cat _ _ _ _ E). fold ty'.
  assert (I0 : filter (fun i => (i <? length (s_noncat s))%nat) (s_ints s) = where_ is_int (droppos ty')).
  { rewrite EI. rewrite filter_app.
    assert (X : filter (fun i => (i <? length (s_noncat s))%nat) (seq (length (s_noncat s)) (s_dim s - length (s_noncat s))) = []).
    { generalize (s_dim s - length (s_noncat s))%nat. intros n. 
      assert (G : forall n off, (length (s_noncat s) <= off)%nat -> filter (fun i => (i <? length (s_noncat s))%nat) (seq off n) = []).
      { induction n0 as [|n0 IH]; intros off Ho; cbn [seq filter]; [reflexivity|]. destruct (Nat.ltb_spec off (length (s_noncat s))); [lia|]. apply IH. lia. }
      apply G. lia. }
    rewrite X, app_nil_r.
    assert (Y : forall f : nat -> bool, filter (fun i => (i <? length (s_noncat s))%nat) (filter f (seq 0 (length (s_noncat s)))) = filter f (seq 0 (length (s_noncat s)))).
    { intros f. apply sorted_ext.
      - assert (S : StronglySorted lt (filter f (seq 0 (length (s_noncat s))))) by apply filter_seq_sorted.
        revert S. generalize (filter f (seq 0 (length (s_noncat s)))). induction l as [|a l IH]; cbn [filter]; intros S; [constructor|].
        inversion S; subst. destruct (a <? length (s_noncat s))%nat; [|apply IH; assumption]. constructor; [apply IH; assumption|].
        apply Forall_forall. intros z Hz. apply filter_In in Hz. destruct Hz as [Hz _]. rewrite Forall_forall in H2. apply H2. exact Hz.
      - apply filter_seq_sorted.
      - intros i. rewrite !filter_In, in_seq. split; [tauto|]. intros [A1 A2]. repeat split; try lia; [exact A2|].
        apply Nat.ltb_lt. lia. }
    rewrite Y. rewrite (filter_where is_int (droppos ty') VReal).
    assert (LD : length (droppos ty') = length (s_noncat s)).
    { rewrite (en_noncat _ _ _ _ E). fold ty'. rewrite where_length. reflexivity. }
    rewrite LD. apply filter_ext_In'. intros k Hk. apply in_seq in Hk. f_equal.
    rewrite (en_noncat _ _ _ _ E) in *. fold ty' in Hk |- *. rewrite <- (nth_take VReal) by lia.
    rewrite take_where. reflexivity. }
  rewrite I0, insert_all. unfold where_, ty'.
  assert (G : forall off ty lo up, length up = length lo -> length ty = length lo ->
    where_from (fun t => negb (is_real t)) off (map3 demote ty lo up) = where_from (fun t => negb (is_real t)) off ty).
  { clear. intros off ty. revert off. induction ty as [|t ty IH]; intros off [|l lo] [|u up] H1 H2; cbn in *; try lia; try reflexivity.
    rewrite demote_real. rewrite IH by lia. reflexivity. }
  apply G; assumption.
Qed.
