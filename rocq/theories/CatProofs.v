(** * Fixed variables and categorical encoding: lemmas. *)
From Verif Require Export ModelCategorical.
From Verif Require Import BaseLemmas.
From Coq Require Import Lia Lqa Sorted.
Open Scope Q_scope.

(** ** Index lists *)
Lemma where_from_shift {A} (f : A -> bool) l : forall off, where_from f (S off) l = map S (where_from f off l).
Proof. induction l as [|x r IH]; intros off; cbn; [reflexivity|]. rewrite IH. destruct (f x); cbn; rewrite ?IH; reflexivity. Qed.
Lemma where_from_In {A} (f : A -> bool) d l : forall off i,
  In i (where_from f off l) <-> (off <= i < off + length l)%nat /\ f (nth (i - off) l d) = true.
Proof.
  induction l as [|x r IH]; intros off i; cbn [where_from length].
  - split; [intros []|lia].
  - assert (E : In i (where_from f (S off) r) <-> (S off <= i < off + S (length r))%nat /\ f (nth (i - off) (x :: r) d) = true).
    { rewrite IH. split; intros [A1 A2]; (split; [lia|]).
      - replace (i - off)%nat with (S (i - S off)) by lia. exact A2.
      - replace (i - off)%nat with (S (i - S off)) in A2 by lia. exact A2. }
    destruct (f x) eqn:Fx; cbn [In]; rewrite E; split.
    + intros [<-|[A1 A2]]; [|split; [lia|exact A2]]. rewrite Nat.sub_diag. split; [lia|exact Fx].
    + intros [A1 A2]. destruct (Nat.eq_dec off i) as [|Hn]; [auto|right; split; [lia|exact A2]].
    + intros [A1 A2]; split; [lia|exact A2].
    + intros [A1 A2]. destruct (Nat.eq_dec off i) as [<-|Hn].
      * rewrite Nat.sub_diag in A2. cbn in A2. congruence.
      * split; [lia|exact A2].
Qed.
Lemma where_In {A} (f : A -> bool) d l i : In i (where_ f l) <-> (i < length l)%nat /\ f (nth i l d) = true.
Proof. unfold where_. rewrite (where_from_In f d). rewrite Nat.sub_0_r. split; intros [A1 A2]; (split; [lia|exact A2]). Qed.
Lemma where_from_sorted {A} (f : A -> bool) l : forall off, StronglySorted lt (where_from f off l).
Proof.
  induction l as [|x r IH]; intros off; cbn [where_from]; [constructor|]. destruct (f x); [|apply IH].
  constructor; [apply IH|]. apply Forall_forall. intros i Hi. 
  apply (where_from_In f x) in Hi; lia.
Qed.
Lemma where_sorted {A} (f : A -> bool) l : StronglySorted lt (where_ f l).
Proof. apply where_from_sorted. Qed.
Lemma sorted_NoDup l : StronglySorted lt l -> NoDup l.
Proof.
  induction 1 as [|x l Hs IH Hf]; constructor; [|exact IH].
  intros H. rewrite Forall_forall in Hf. specialize (Hf x H). lia.
Qed.
Lemma where_length {A} (f : A -> bool) l : length (where_ f l) = length (filter f l).
Proof.
  unfold where_. generalize 0%nat. induction l as [|x r IH]; intros off; cbn; [reflexivity|].
  destruct (f x); cbn; rewrite IH; reflexivity.
Qed.
Lemma where_app {A} (f : A -> bool) a b : forall off,
  where_from f off (a ++ b) = where_from f off a ++ where_from f (off + length a) b.
Proof.
  induction a as [|x a IH]; intros off; cbn [where_from app length].
  - rewrite Nat.add_0_r. reflexivity.
  - rewrite IH. replace (S off + length a)%nat with (off + S (length a))%nat by lia. destruct (f x); reflexivity.
Qed.
Lemma take_where {A} (f : A -> bool) d l : take d (where_ f l) l = filter f l.
Proof.
  unfold take, where_.
  assert (G : forall pre, map (fun i => nth i (pre ++ l) d) (where_from f (length pre) l) = filter f l).
  { induction l as [|x r IH]; intros pre; cbn [where_from filter]; [reflexivity|].
    assert (E : map (fun i => nth i (pre ++ x :: r) d) (where_from f (S (length pre)) r) = filter f r).
    { specialize (IH (pre ++ [x])). rewrite app_length in IH. cbn [length] in IH. rewrite Nat.add_1_r in IH.
      rewrite <- app_assoc in IH. exact IH. }
    destruct (f x); [|exact E]. cbn [map]. rewrite E. rewrite app_nth2, Nat.sub_diag by lia. reflexivity. }
  apply (G []).
Qed.
Lemma take_length {A} (d : A) idx l : length (take d idx l) = length idx.
Proof. apply map_length. Qed.
Lemma nth_take {A} (d : A) idx l k : (k < length idx)%nat -> nth k (take d idx l) d = nth (nth k idx 0%nat) l d.
Proof.
  intros H. unfold take. rewrite (nth_indep _ d (nth 0 l d)) by (rewrite map_length; exact H).
  exact (map_nth (fun i => nth i l d) idx 0%nat k).
Qed.
Lemma take_seq {A} (d : A) l : take d (seq 0 (length l)) l = l.
Proof.
  unfold take. assert (G : forall pre, map (fun i => nth i (pre ++ l) d) (seq (length pre) (length l)) = l).
  { induction l as [|x r IH]; intros pre; cbn [seq map length]; [reflexivity|].
    rewrite app_nth2, Nat.sub_diag by lia. cbn [nth]. f_equal.
    specialize (IH (pre ++ [x])). rewrite app_length in IH. cbn [length] in IH. rewrite Nat.add_1_r in IH.
    rewrite <- app_assoc in IH. exact IH. }
  apply (G []).
Qed.
Lemma memn_In i l : memn i l = true <-> In i l.
Proof.
  unfold memn. rewrite existsb_exists. split.
  - intros (x & Hx & E). apply Nat.eqb_eq in E. subst; exact Hx.
  - intros H. exists i. split; [exact H|apply Nat.eqb_refl].
Qed.

(** ** Assignment through index arrays *)
Lemma put_length {A} idx : forall (vals l : list A), length (put idx vals l) = length l.
Proof. induction idx as [|i r IH]; intros [|v vs] l; cbn; try reflexivity. rewrite IH. apply set_at_length. Qed.
Lemma put_other {A} d idx : forall (vals l : list A) i, ~ In i idx -> nth i (put idx vals l) d = nth i l d.
Proof.
  induction idx as [|j r IH]; intros [|v vs] l i Hi; cbn; try reflexivity.
  rewrite IH by (intros H; apply Hi; right; exact H). apply nth_set_at_ne. intros ->. apply Hi. left; reflexivity.
Qed.
Lemma put_same {A} d idx : forall (vals l : list A) k, NoDup idx -> length vals = length idx ->
  (forall i, In i idx -> (i < length l)%nat) -> (k < length idx)%nat ->
  nth (nth k idx 0%nat) (put idx vals l) d = nth k vals d.
Proof.
  induction idx as [|j r IH]; intros [|v vs] l k Hn Hl Hb Hk; cbn in *; try lia.
  inversion Hn; subst. destruct k as [|k].
  - rewrite put_other by assumption. apply nth_set_at. apply Hb. left; reflexivity.
  - apply IH; [assumption|lia| |lia]. intros i Hi. rewrite set_at_length. apply Hb. right; exact Hi.
Qed.

(** ** Inserting the fixed variables *)
Fixpoint merge (mask : list (option Q)) (p : point) : point :=
  match mask with
  | [] => p
  | Some v :: r => v :: merge r p
  | None :: r => match p with x :: p' => x :: merge r p' | [] => merge r [] end
  end.
Fixpoint somes (off : nat) (mask : list (option Q)) : list (nat * Q) :=
  match mask with
  | [] => []
  | Some v :: r => (off, v) :: somes (S off) r
  | None :: r => somes (S off) r
  end.
Definition nones (mask : list (option Q)) : nat := length (filter (fun m => match m with None => true | _ => false end) mask).
Lemma insert_at_app {A} (pre l : list A) v : insert_at (length pre) v (pre ++ l) = pre ++ v :: l.
Proof. induction pre as [|x r IH]; cbn; [destruct l; reflexivity|]. rewrite IH. reflexivity. Qed.
Lemma insert_fixed_merge mask : forall pre p, length p = nones mask ->
  insert_fixed (somes (length pre) mask) (pre ++ p) = pre ++ merge mask p.
Proof.
  unfold insert_fixed. induction mask as [|[v|] r IH]; intros pre p Hl; cbn [somes merge fold_left fst snd].
  - reflexivity.
  - rewrite insert_at_app. specialize (IH (pre ++ [v]) p). rewrite app_length in IH. cbn [length] in IH.
    rewrite Nat.add_1_r, <- !app_assoc in IH. apply IH. exact Hl.
  - unfold nones in Hl. cbn in Hl. destruct p as [|x p]; cbn in Hl; [lia|].
    specialize (IH (pre ++ [x]) p). rewrite app_length in IH. cbn [length] in IH.
    rewrite Nat.add_1_r, <- !app_assoc in IH. apply IH. unfold nones. lia.
Qed.
Lemma merge_length mask : forall p, length p = nones mask -> length (merge mask p) = length mask.
Proof.
  induction mask as [|[v|] r IH]; intros p Hl; cbn [merge length].
  - destruct p; [reflexivity|discriminate].
  - rewrite IH by exact Hl. reflexivity.
  - unfold nones in Hl. cbn in Hl. destruct p as [|x p]; cbn in Hl; [lia|]. cbn. rewrite IH; [reflexivity|unfold nones; lia].
Qed.
Lemma merge_some mask : forall p i v, length p = nones mask -> nth i mask None = Some v -> nth i (merge mask p) 0 = v.
Proof.
  induction mask as [|[w|] r IH]; intros p i v Hl Hi.
  - destruct i; discriminate.
  - destruct i as [|i]; cbn in *; [congruence|]. apply IH; assumption.
  - unfold nones in Hl. cbn in Hl. destruct p as [|x p]; cbn in Hl; [lia|].
    destruct i as [|i]; cbn in Hi; [discriminate|]. cbn. apply IH; [unfold nones; lia|exact Hi].
Qed.
Lemma merge_free mask : forall p, length p = nones mask ->
  map snd (filter (fun mx => match fst mx with None => true | _ => false end) (combine mask (merge mask p))) = p.
Proof.
  induction mask as [|[w|] r IH]; intros p Hl; cbn [merge combine filter fst map].
  - destruct p; [reflexivity|discriminate].
  - apply IH. exact Hl.
  - unfold nones in Hl. cbn in Hl. destruct p as [|x p]; cbn in Hl; [lia|].
    cbn. f_equal. apply IH. unfold nones. lia.
Qed.

(** The mask of a black box. *)
Definition mask_of (eps : Q) (b : bbox) : list (option Q) :=
  map (fun lu => if close_pair eps lu then Some (fst lu) else None) (combine (bb_lower b) (bb_upper b)).
Lemma fixed_somes eps b : length (bb_upper b) = length (bb_lower b) ->
  fixed_vars eps b = somes 0 (mask_of eps b).
Proof.
  intros HL. unfold fixed_vars, fixed_idx, where_, mask_of.
  assert (G : forall lo up pre, length up = length lo ->
    map (fun i => (i, nth i (pre ++ lo) 0)) (where_from (close_pair eps) (length pre) (combine lo up)) =
    somes (length pre) (map (fun lu => if close_pair eps lu then Some (fst lu) else None) (combine lo up))).
  { induction lo as [|l lo IH]; intros [|u up] pre Hl; cbn [length] in Hl; try lia; cbn [combine where_from map somes]; [reflexivity|].
    assert (E := IH up (pre ++ [l]) ltac:(lia)). rewrite app_length in E. cbn [length] in E.
    rewrite Nat.add_1_r, <- app_assoc in E. cbn [app] in E.
    destruct (close_pair eps (l, u)); cbn [somes map fst]; rewrite E; [|reflexivity].
    rewrite app_nth2, Nat.sub_diag by lia. reflexivity. }
  apply (G (bb_lower b) (bb_upper b) []). exact HL.
Qed.
Lemma combine_nth_lt {A B} (l : list A) (m : list B) i d e : (i < length l)%nat -> length m = length l ->
  nth i (combine l m) (d, e) = (nth i l d, nth i m e).
Proof. intros H E. apply combine_nth. lia. Qed.
Lemma mask_length eps b : length (bb_upper b) = length (bb_lower b) -> length (mask_of eps b) = bb_dim b.
Proof. intros H. unfold mask_of, bb_dim. rewrite map_length, combine_length, H. apply Nat.min_id. Qed.
Lemma mask_nth eps b i : length (bb_upper b) = length (bb_lower b) -> (i < bb_dim b)%nat ->
  nth i (mask_of eps b) None =
  if close_pair eps (nth i (bb_lower b) 0, nth i (bb_upper b) 0) then Some (nth i (bb_lower b) 0) else None.
Proof.
  intros HL Hi. unfold mask_of, bb_dim in *.
  rewrite (nth_indep _ None ((fun lu => if close_pair eps lu then Some (fst lu) else None) (0,0)))
    by (rewrite map_length, combine_length, HL; lia).
  rewrite (map_nth (fun lu => if close_pair eps lu then Some (fst lu) else None)).
  rewrite combine_nth_lt by assumption. reflexivity.
Qed.
Lemma unfixed_In eps b i : length (bb_upper b) = length (bb_lower b) ->
  (In i (unfixed_idx eps b) <-> (i < bb_dim b)%nat /\ close_pair eps (nth i (bb_lower b) 0, nth i (bb_upper b) 0) = false).
Proof.
  intros HL. unfold unfixed_idx. rewrite filter_In, in_seq. rewrite negb_true_iff.
  assert (F : In i (fixed_idx eps b) <-> (i < bb_dim b)%nat /\ close_pair eps (nth i (bb_lower b) 0, nth i (bb_upper b) 0) = true).
  { unfold fixed_idx. rewrite (where_In _ (0,0)). rewrite combine_length, HL, Nat.min_id. unfold bb_dim.
    split; intros [A1 A2]; (split; [exact A1|]); rewrite combine_nth_lt in * by assumption; exact A2. }
  unfold bb_dim in *. split.
  - intros [A1 A2]. split; [lia|]. destruct (close_pair _ _) eqn:E; [|reflexivity].
    assert (X : memn i (fixed_idx eps b) = true) by (apply memn_In, F; split; [lia|reflexivity]). congruence.
  - intros [A1 A2]. split; [lia|]. destruct (memn i (fixed_idx eps b)) eqn:E; [|reflexivity].
    apply memn_In, F in E. destruct E; congruence.
Qed.
Lemma filter_seq_sorted (f : nat -> bool) n : forall off, StronglySorted lt (filter f (seq off n)).
Proof.
  induction n as [|n IH]; intros off; cbn [seq filter]; [constructor|].
  destruct (f off); [|apply IH]. constructor; [apply IH|]. apply Forall_forall. intros i Hi.
  apply filter_In in Hi. destruct Hi as [Hi _]. apply in_seq in Hi. lia.
Qed.
Lemma unfixed_sorted eps b : StronglySorted lt (unfixed_idx eps b).
Proof. apply filter_seq_sorted. Qed.
Lemma sorted_ext l m : StronglySorted lt l -> StronglySorted lt m -> (forall i : nat, In i l <-> In i m) -> l = m.
Proof.
  intros Hl. revert m. induction Hl as [|x l Hl IH Hx]; intros m Hm He.
  - destruct m as [|y m]; [reflexivity|]. exfalso. apply (He y). left; reflexivity.
  - destruct m as [|y m]; [exfalso; apply (He x); left; reflexivity|].
    inversion Hm as [|? ? Hm' Hy]; subst. rewrite Forall_forall in Hx, Hy.
    assert (x = y).
    { destruct (proj1 (He x) (or_introl eq_refl)) as [|Hi]; [auto|].
      destruct (proj2 (He y) (or_introl eq_refl)) as [|Hj]; [auto|]. specialize (Hx _ Hj). specialize (Hy _ Hi). lia. }
    subst y. f_equal. apply IH; [exact Hm'|]. intros i. split; intros Hi.
    + destruct (proj1 (He i) (or_intror Hi)) as [<-|]; [|assumption]. specialize (Hx _ Hi). lia.
    + destruct (proj2 (He i) (or_intror Hi)) as [<-|]; [|assumption]. specialize (Hy _ Hi). lia.
Qed.
Lemma unfixed_where eps b : length (bb_upper b) = length (bb_lower b) ->
  unfixed_idx eps b = where_ (fun m => match m with None => true | _ => false end) (mask_of eps b).
Proof.
  intros HL. apply sorted_ext; [apply unfixed_sorted|apply where_sorted|]. intros i.
  rewrite unfixed_In by exact HL. rewrite (where_In _ None). rewrite mask_length by exact HL.
  split; intros [A1 A2]; (split; [exact A1|]); rewrite (mask_nth eps b i HL A1) in *.
  - rewrite A2. reflexivity.
  - destruct (close_pair _ _); [discriminate|reflexivity].
Qed.
Lemma unfixed_count eps b : length (bb_upper b) = length (bb_lower b) -> length (unfixed_idx eps b) = nones (mask_of eps b).
Proof. intros HL. rewrite unfixed_where by exact HL. rewrite where_length. reflexivity. Qed.
Lemma no_fixed_unfixed eps b : length (bb_upper b) = length (bb_lower b) -> fixed_idx eps b = [] ->
  unfixed_idx eps b = seq 0 (bb_dim b).
Proof.
  intros HL H. unfold unfixed_idx. rewrite H. cbn [memn existsb negb]. clear.
  generalize 0%nat. induction (bb_dim b) as [|n IH]; intros o; cbn; [reflexivity|]. f_equal. apply IH.
Qed.

(** ** The problem on the free variables *)
Definition encode_problem (fx : list (nat * Q)) (lo up : point) (ty : list vtype) : setup :=
  let ty' := map3 demote ty lo up in
  let cat := where_ is_cat ty' in
  let noncat := where_ (fun t => negb (is_cat t)) ty' in
  match cat with
  | [] => mkSetup fx lo up (where_ (fun t => negb (is_real t)) ty) [] noncat []
  | _ =>
      let m := length noncat in
      let total := blocks_end m cat lo up in
      mkSetup fx
        (take 0 noncat lo ++ repeat 0 (total - m))
        (take 0 noncat up ++ repeat 1 (total - m))
        (filter (fun k => is_int (nth (nth k noncat 0%nat) ty' VReal)) (seq 0 m) ++ seq m (total - m))
        cat noncat (blocks m cat lo up)
  end.
Definition wf_bb (b : bbox) : Prop := length (bb_upper b) = length (bb_lower b) /\ length (bb_type b) = length (bb_lower b).
Lemma where_map {A B} (f : B -> bool) (g : A -> B) l : forall off, where_from f off (map g l) = where_from (fun x => f (g x)) off l.
Proof. induction l as [|x r IH]; intros off; cbn; [reflexivity|]. rewrite IH. reflexivity. Qed.
Lemma where_from_ext {A} (f g : A -> bool) l : (forall x, In x l -> f x = g x) -> forall off, where_from f off l = where_from g off l.
Proof.
  induction l as [|x r IH]; intros H off; cbn; [reflexivity|]. rewrite (H x) by (left; reflexivity).
  rewrite IH; [reflexivity|]. intros y Hy. apply H. right; exact Hy.
Qed.
Lemma construct_free eps b : wf_bb b -> let uf := unfixed_idx eps b in
  construct_problem eps b = encode_problem (fixed_vars eps b) (take 0 uf (bb_lower b)) (take 0 uf (bb_upper b)) (take VReal uf (bb_type b)).
Proof.
  intros [HU HT]. cbn zeta.
  assert (E1 : match fixed_idx eps b with [] => bb_lower b | _ => take 0 (unfixed_idx eps b) (bb_lower b) end = take 0 (unfixed_idx eps b) (bb_lower b)).
  { destruct (fixed_idx eps b) eqn:E; [|reflexivity]. rewrite (no_fixed_unfixed eps b HU E). symmetry. apply take_seq. }
  assert (E2 : match fixed_idx eps b with [] => bb_upper b | _ => take 0 (unfixed_idx eps b) (bb_upper b) end = take 0 (unfixed_idx eps b) (bb_upper b)).
  { destruct (fixed_idx eps b) eqn:E; [|reflexivity]. rewrite (no_fixed_unfixed eps b HU E). unfold bb_dim. rewrite <- HU. symmetry. apply take_seq. }
  assert (E3 : match fixed_idx eps b with [] => bb_type b | _ => take VReal (unfixed_idx eps b) (bb_type b) end = take VReal (unfixed_idx eps b) (bb_type b)).
  { destruct (fixed_idx eps b) eqn:E; [|reflexivity]. rewrite (no_fixed_unfixed eps b HU E). unfold bb_dim. rewrite <- HT. symmetry. apply take_seq. }
  assert (E4 : match fixed_idx eps b with [] => where_ (fun t => negb (is_real t)) (bb_type b)
     | _ => where_ (fun i => memn i (where_ (fun t => negb (is_real t)) (bb_type b))) (unfixed_idx eps b) end =
     where_ (fun t => negb (is_real t)) (take VReal (unfixed_idx eps b) (bb_type b))).
  { assert (G : where_ (fun i => memn i (where_ (fun t => negb (is_real t)) (bb_type b))) (unfixed_idx eps b) =
       where_ (fun t => negb (is_real t)) (take VReal (unfixed_idx eps b) (bb_type b))).
    { unfold take, where_ at 2. unfold where_ at 2. rewrite where_map. unfold where_ at 1. apply where_from_ext. intros i Hi. cbn beta.
      apply (unfixed_In eps b i HU) in Hi. destruct Hi as [Hi _]. unfold bb_dim in Hi.
      destruct (negb (is_real (nth i (bb_type b) VReal))) eqn:B.
      - apply memn_In. apply (where_In _ VReal). split; [rewrite HT; exact Hi|exact B].
      - destruct (memn i _) eqn:M; [|reflexivity]. apply memn_In in M. apply (where_In _ VReal) in M. destruct M; congruence. }
    destruct (fixed_idx eps b) eqn:E; [|exact G]. rewrite (no_fixed_unfixed eps b HU E). unfold bb_dim. rewrite <- HT. rewrite take_seq. reflexivity. }
  unfold construct_problem, encode_problem. rewrite E1, E2, E3, E4. reflexivity.
Qed.

(** *** Blocks *)
Lemma blocks_spec lo up cats : forall cur,
  map (fun e => fst (fst e)) (blocks cur cats lo up) = cats /\
  (cur <= blocks_end cur cats lo up)%nat /\
  concat (map snd (blocks cur cats lo up)) = seq cur (blocks_end cur cats lo up - cur) /\
  (forall i l ex, In (i, l, ex) (blocks cur cats lo up) -> In i cats /\ l = nth i lo 0 /\
     exists st, (cur <= st)%nat /\ (st + length ex <= blocks_end cur cats lo up)%nat /\
       ex = seq st (block_size (nth i lo 0) (nth i up 0))).
Proof.
  induction cats as [|i r IH]; intros cur; cbn [blocks blocks_end map concat].
  - repeat split; try lia. rewrite Nat.sub_diag. reflexivity. all: destruct H.
  - set (sz := block_size (nth i lo 0) (nth i up 0)). destruct (IH (cur + sz)%nat) as (A & B & D & E).
    cbn [fst snd]. split; [f_equal; exact A|]. split; [lia|]. split.
    + rewrite D. rewrite <- seq_app. f_equal. lia.
    + intros j l ex [H|H].
      * injection H as <- <- <-. split; [left; reflexivity|]. split; [reflexivity|].
        exists cur. rewrite seq_length. split; [lia|]. split; [lia|reflexivity].
      * destruct (E j l ex H) as (E1 & E2 & st & E3 & E4 & E5). split; [right; exact E1|]. split; [exact E2|].
        exists st. split; [lia|]. split; [exact E4|exact E5].
Qed.
Lemma blocks_nth lo up cats : forall cur k, (k < length cats)%nat ->
  let i := nth k cats 0%nat in
  nth k (blocks cur cats lo up) (0%nat, 0, []) = (i, nth i lo 0, seq (blocks_end cur (firstn k cats) lo up) (block_size (nth i lo 0) (nth i up 0))).
Proof.
  induction cats as [|i r IH]; intros cur k Hk; cbn [length] in Hk; [lia|].
  destruct k as [|k]; cbn [blocks nth firstn blocks_end]; [reflexivity|]. apply IH. lia.
Qed.

Record encoded (s : setup) (lo up : point) (ty : list vtype) : Prop := {
  en_len : length up = length lo /\ length ty = length lo;
  en_cat : s_cat s = where_ is_cat (map3 demote ty lo up) ;
  en_noncat : s_noncat s = where_ (fun t => negb (is_cat t)) (map3 demote ty lo up);
  en_exp : s_expansion s = blocks (length (s_noncat s)) (s_cat s) lo up;
  en_total : s_dim s = blocks_end (length (s_noncat s)) (s_cat s) lo up;
  en_lower : s_lower s = take 0 (s_noncat s) lo ++ repeat 0 (s_dim s - length (s_noncat s));
  en_upper : s_upper s = take 0 (s_noncat s) up ++ repeat 1 (s_dim s - length (s_noncat s));
  en_ints : s_ints s = filter (fun k => is_int (nth (nth k (s_noncat s) 0%nat) (map3 demote ty lo up) VReal)) (seq 0 (length (s_noncat s)))
     ++ seq (length (s_noncat s)) (s_dim s - length (s_noncat s)) }.
Lemma map3_len3 {A B D E} (f : A -> B -> D -> E) : forall l m k, length m = length l -> length k = length l -> length (map3 f l m k) = length l.
Proof. induction l as [|a l IH]; intros [|b m] [|c k] H1 H2; cbn in *; try lia. rewrite IH; lia. Qed.
Lemma where_none {A} (f : A -> bool) l : where_ f l = [] -> where_ (fun t => negb (f t)) l = seq 0 (length l).
Proof.
  unfold where_. generalize 0%nat. induction l as [|x r IH]; intros off; cbn; [reflexivity|].
  destruct (f x); cbn; [discriminate|]. intros H. f_equal. apply IH. exact H.
Qed.
Lemma demote_real t l u : is_real (demote t l u) = is_real t.
Proof. unfold demote. destruct t; cbn; try reflexivity. destruct (Qeq_bool (u - l) 1); reflexivity. Qed.
Lemma nth_demote : forall ty lo up k, length up = length lo -> length ty = length lo -> (k < length lo)%nat ->
  nth k (map3 demote ty lo up) VReal = demote (nth k ty VReal) (nth k lo 0) (nth k up 0).
Proof. intros ty lo up k H1 H2 Hk. apply nth_map3; lia. Qed.
Lemma filter_where {A} (f : A -> bool) l d : where_ f l = filter (fun k => f (nth k l d)) (seq 0 (length l)).
Proof.
  apply sorted_ext; [apply where_sorted|apply filter_seq_sorted|]. intros i. rewrite (where_In f d), filter_In, in_seq.
  split; intros [A1 A2]; (split; [lia|exact A2]).
Qed.
Lemma filter_ext_In' {A} (f g : A -> bool) l : (forall x, In x l -> f x = g x) -> filter f l = filter g l.
Proof.
  induction l as [|x r IH]; intros H; cbn; [reflexivity|]. rewrite (H x) by (left; reflexivity).
  rewrite IH; [reflexivity|]. intros y Hy; apply H; right; exact Hy.
Qed.
Lemma encode_encoded fx lo up ty : length up = length lo -> length ty = length lo ->
  encoded (encode_problem fx lo up ty) lo up ty.
Proof.
  intros HU HT. unfold encode_problem.
  set (ty' := map3 demote ty lo up). assert (HL : length ty' = length lo) by (unfold ty'; rewrite map3_len3; lia).
  destruct (where_ is_cat ty') as [|c0 cr] eqn:E.
  - pose proof (where_none _ _ E) as EN. rewrite HL in EN.
    constructor; cbn [s_cat s_noncat s_expansion s_dim s_lower s_upper s_ints blocks blocks_end]; unfold s_dim; cbn [s_lower]; fold ty'.
    + auto.
    + symmetry; exact E.
    + reflexivity.
    + reflexivity.
    + rewrite EN, seq_length. reflexivity.
    + rewrite EN, seq_length, Nat.sub_diag, app_nil_r. symmetry. apply take_seq.
    + rewrite EN, seq_length, Nat.sub_diag, app_nil_r. rewrite <- HU. symmetry. apply take_seq.
    + rewrite EN, seq_length, Nat.sub_diag, app_nil_r.
      rewrite (filter_where _ ty VReal), HT. apply filter_ext_In'. intros k Hk. apply in_seq in Hk.
      rewrite seq_nth by lia. cbn [Nat.add].
      assert (NC : is_cat (nth k ty' VReal) = false).
      { destruct (is_cat (nth k ty' VReal)) eqn:B; [|reflexivity]. exfalso.
        assert (X : In k (where_ is_cat ty')) by (apply (where_In _ VReal); split; [lia|exact B]). rewrite E in X. destruct X. }
      assert (R : is_real (nth k ty' VReal) = is_real (nth k ty VReal)) by (unfold ty'; rewrite nth_demote by lia; apply demote_real).
      rewrite <- R. destruct (nth k ty' VReal); [reflexivity|reflexivity|discriminate].
  - set (nc := where_ (fun t => negb (is_cat t)) ty').
    destruct (blocks_spec lo up (c0 :: cr) (length nc)) as (_ & BL & _).
    assert (D : length (take 0 nc lo ++ repeat 0 (blocks_end (length nc) (c0 :: cr) lo up - length nc)) = blocks_end (length nc) (c0 :: cr) lo up).
    { rewrite app_length, take_length, repeat_length. lia. }
    constructor; cbn [s_cat s_noncat s_expansion s_lower s_upper s_ints]; unfold s_dim; cbn [s_lower s_noncat s_cat]; fold ty'; fold nc;
      rewrite ?D; auto.
Qed.
Lemma construct_encoded eps b : wf_bb b -> let uf := unfixed_idx eps b in
  encoded (construct_problem eps b) (take 0 uf (bb_lower b)) (take 0 uf (bb_upper b)) (take VReal uf (bb_type b)) /\
  s_fixed (construct_problem eps b) = fixed_vars eps b.
Proof.
  intros H. cbn zeta. rewrite (construct_free eps b H). split.
  - apply encode_encoded; rewrite !take_length; reflexivity.
  - unfold encode_problem. destruct (where_ is_cat _); reflexivity.
Qed.

Lemma noncat_cat_partition s lo up ty : encoded s lo up ty ->
  NoDup (s_noncat s) /\ NoDup (s_cat s) /\ (length (s_cat s) + length (s_noncat s) = length lo)%nat /\
  (forall i, In i (s_noncat s) <-> (i < length lo)%nat /\ is_cat (nth i (map3 demote ty lo up) VReal) = false) /\
  (forall i, In i (s_cat s) <-> (i < length lo)%nat /\ is_cat (nth i (map3 demote ty lo up) VReal) = true).
Proof.
  intros [[HU HT] EC EN _ _ _ _ _]. rewrite EC, EN. set (ty' := map3 demote ty lo up) in *.
  assert (HL : length ty' = length lo) by (unfold ty'; rewrite map3_len3; lia).
  split; [apply sorted_NoDup, where_sorted|]. split; [apply sorted_NoDup, where_sorted|]. split; [|split].
  - rewrite !where_length, <- HL. clear. induction ty' as [|t r IH]; cbn; [reflexivity|]. destruct (is_cat t); cbn; lia.
  - intros i. rewrite (where_In _ VReal), HL, negb_true_iff. reflexivity.
  - intros i. rewrite (where_In _ VReal), HL. reflexivity.
Qed.

(** *** Decoding *)
Lemma write_cat_length pick p acc e : length (write_cat pick p acc e) = length acc.
Proof. destruct e as [[i l] ex]. unfold write_cat. destruct (pick p ex); [apply set_at_length|reflexivity]. Qed.
Lemma fold_write_length pick p es : forall acc, length (fold_left (write_cat pick p) es acc) = length acc.
Proof. induction es as [|e r IH]; intros acc; cbn; [reflexivity|]. rewrite IH. apply write_cat_length. Qed.
Lemma fold_write_other pick p es : forall acc i, ~ In i (map (fun e => fst (fst e)) es) ->
  nth i (fold_left (write_cat pick p) es acc) 0 = nth i acc 0.
Proof.
  induction es as [|[[j l] ex] r IH]; intros acc i Hi; cbn [fold_left]; [reflexivity|].
  rewrite IH by (intros H; apply Hi; right; exact H). unfold write_cat. destruct (pick p ex); [|reflexivity].
  apply nth_set_at_ne. intros ->. apply Hi. left; reflexivity.
Qed.
Lemma fold_write_same pick p es : forall acc i l ex, NoDup (map (fun e => fst (fst e)) es) ->
  In (i, l, ex) es -> (forall j, In j (map (fun e => fst (fst e)) es) -> (j < length acc)%nat) ->
  nth i (fold_left (write_cat pick p) es acc) 0 =
  match pick p ex with Some j => l + inject_Z (Z.of_nat j) | None => nth i acc 0 end.
Proof.
  induction es as [|[[j l'] ex'] r IH]; intros acc i l ex Hn Hin Hb; [destruct Hin|].
  cbn [map fst] in Hn. inversion Hn as [|? ? Hnj Hn']; subst. cbn [fold_left]. destruct Hin as [H|H].
  - injection H as -> -> ->. rewrite fold_write_other by exact Hnj. unfold write_cat.
    destruct (pick p ex); [|reflexivity]. apply nth_set_at. apply Hb. left; reflexivity.
  - rewrite (IH _ i l ex Hn' H).
    + destruct (pick p ex); [reflexivity|]. unfold write_cat. destruct (pick p ex'); [|reflexivity].
      apply nth_set_at_ne. intros ->. apply Hnj. apply (in_map (fun e => fst (fst e))) in H. exact H.
    + intros k Hk. rewrite write_cat_length. apply Hb. right; exact Hk.
Qed.
Lemma decode_length pick s p : length (decode_with pick s p) = (length (s_cat s) + length (s_noncat s))%nat.
Proof. unfold decode_with. rewrite fold_write_length, put_length, repeat_length. reflexivity. Qed.
Lemma decode_spec pick s lo up ty p : encoded s lo up ty -> length p = s_dim s ->
  length (decode_with pick s p) = length lo /\
  (forall k, (k < length (s_noncat s))%nat -> nth (nth k (s_noncat s) 0%nat) (decode_with pick s p) 0 = nth k p 0) /\
  (forall i l ex, In (i, l, ex) (s_expansion s) -> nth i (decode_with pick s p) 0 =
     match pick p ex with Some j => l + inject_Z (Z.of_nat j) | None => 0 end).
Proof.
  intros E Hp. destruct (noncat_cat_partition s lo up ty E) as (N1 & N2 & NL & NN & NC).
  pose proof (en_exp _ _ _ _ E) as EX. pose proof (en_total _ _ _ _ E) as ET.
  destruct (blocks_spec lo up (s_cat s) (length (s_noncat s))) as (B1 & B2 & _ & _). rewrite <- EX in B1.
  assert (LP : (length (s_noncat s) <= length p)%nat) by lia.
  split; [rewrite decode_length; exact NL|]. split.
  - intros k Hk. unfold decode_with.
    assert (Hin : In (nth k (s_noncat s) 0%nat) (s_noncat s)) by (apply nth_In; exact Hk).
    rewrite fold_write_other.
    + rewrite put_same; [|exact N1| | |exact Hk].
      * rewrite <- (firstn_skipn (length (s_noncat s)) p) at 2. rewrite app_nth1; [reflexivity|].
        rewrite firstn_length. lia.
      * rewrite firstn_length. lia.
      * intros i Hi. rewrite repeat_length. apply NN in Hi. lia.
    + rewrite B1. intros H. apply NC in H. apply NN in Hin. destruct H, Hin; congruence.
  - intros i l ex Hin. unfold decode_with. rewrite (fold_write_same pick p (s_expansion s) _ i l ex).
    + destruct (pick p ex); [reflexivity|].
      assert (Hc : In i (s_cat s)). { rewrite <- B1. apply (in_map (fun e => fst (fst e))) in Hin. exact Hin. }
      rewrite put_other.
      * apply nth_repeat.
      * intros H. apply NN in H. apply NC in Hc. destruct H, Hc; congruence.
    + rewrite B1. exact N2.
    + exact Hin.
    + rewrite B1. intros j Hj. rewrite put_length, repeat_length. apply NC in Hj. lia.
Qed.
