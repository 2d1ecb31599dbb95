(** * Properties of fixed and categorical variables (C23 - C27, C88).

    [construct_problem eps b] is what the constructor stores for black box [b];
    [bb_point s p] the point handed to the black box for the stored point [p];
    [returned_point s p] the point [optimize] returns for it.  Vocabulary: [SpecCategorical]. *)
From Verif Require Import CatGlue.
From Coq Require Import Lia Lqa.
Open Scope Q_scope.

(** A black box with a fixed variable (1), two categorical ones (2 and 4). *)
Definition bb0 : bbox := mkBB [0; 3; 1; 2; 0; 0] [5; 3; 4; 6; 2; 1] [VReal; VInt; VCat; VInt; VCat; VCat].
Definition eps0 : Q := 1 # 1000000.
Example bb0_kinds : well_formed bb0 /\ cat_ordered eps0 bb0 /\ free_vars eps0 bb0 = [0; 2; 3; 4; 5]%nat /\
  plain_vars eps0 bb0 = [0; 3; 5]%nat /\ cat_vars eps0 bb0 = [2; 4]%nat /\ encoded_dim eps0 bb0 = 10%nat.
Proof.
  split; [split; reflexivity|]. split.
  - intros i Hi. vm_compute in Hi. destruct Hi as [<-|[<-|[]]]; vm_compute; discriminate.
  - repeat split.
Qed.

(** ** C23 *)
Theorem C23_fixed_variables : forall eps b, well_formed b -> cat_ordered eps b ->
  let s := construct_problem eps b in
  forall p, length p = s_dim s ->
  length (bb_point s p) = bb_dim b /\
  (forall i, (i < bb_dim b)%nat -> fixedb eps b i = true -> nth i (bb_point s p) 0 = lower b i) /\
  (cat_vars eps b = [] -> values_at (free_vars eps b) (bb_point s p) = p) /\
  values_at (plain_vars eps b) (bb_point s p) = firstn (length (plain_vars eps b)) p.
Proof.
  intros eps b H1 H2 s p Hp. destruct (fixed_spec eps b H1 p Hp) as (A & B & D).
  destruct (decoded_spec eps b H1 H2 p Hp) as [E _]. split; [exact A|]. split; [exact B|]. split; [|exact E].
  intros H0. etransitivity; [exact D|]. apply no_cat_decode; assumption.
Qed.
Print Assumptions C23_fixed_variables.
(** Each categorical variable gets the value of the first active entry of its block. *)
Theorem C23_categorical_value : forall eps b, well_formed b -> cat_ordered eps b ->
  let s := construct_problem eps b in
  forall p k, length p = s_dim s -> (k < length (cat_vars eps b))%nat -> let i := nth k (cat_vars eps b) 0%nat in
  (forall j, (j < num_values b i)%nat -> nth (block_start eps b k + j) p 0 == 1 ->
     (forall j', (j' < j)%nat -> ~ nth (block_start eps b k + j') p 0 == 1) ->
     nth i (bb_point s p) 0 = lower b i + inject_Z (Z.of_nat j)) /\
  ((forall j, (j < num_values b i)%nat -> ~ nth (block_start eps b k + j) p 0 == 1) -> nth i (bb_point s p) 0 = 0).
Proof. intros eps b H1 H2 s p k Hp Hk. exact (proj2 (decoded_spec eps b H1 H2 p Hp) k Hk). Qed.
Print Assumptions C23_categorical_value.
Example C23_case : let s := construct_problem eps0 bb0 in
  s_dim s = 10%nat /\ bb_point s [7#2; 5; 1; 0; 0; 1; 0; 0; 1; 0] = [7#2; 3; 1 + 2; 5; 0 + 1; 1].
Proof. split; reflexivity. Qed.

(** ** C24 *)
(** The returned point always has as many coordinates as there are free variables... *)
Theorem C24_returned_dimension : forall eps b, well_formed b -> cat_ordered eps b ->
  let s := construct_problem eps b in forall p, length p = s_dim s ->
  length (returned_point s p) = length (free_vars eps b).
Proof. intros eps b H1 H2 s p Hp. exact (returned_length eps b H1 p Hp). Qed.
Print Assumptions C24_returned_dimension.
(** ... and is the evaluated point with the fixed variables left out. *)
Theorem C24_returned_is_evaluated : forall eps b, well_formed b -> cat_ordered eps b ->
  let s := construct_problem eps b in forall p, one_hot eps b p ->
  returned_point s p = values_at (free_vars eps b) (bb_point s p).
Proof. intros eps b H1 H2 s p Hp. exact (returned_agrees eps b H1 H2 p Hp). Qed.
Print Assumptions C24_returned_is_evaluated.
(** Hence with a fixed variable it never has the black box's dimension, and without it is
    the evaluated point. *)
Theorem C24_dimension_refuted : forall eps b, well_formed b -> cat_ordered eps b ->
  (exists i, (i < bb_dim b)%nat /\ fixedb eps b i = true) ->
  let s := construct_problem eps b in forall p, length p = s_dim s -> length (returned_point s p) <> bb_dim b.
Proof.
  intros eps b H1 H2 (i & Hi & Hf) s p Hp E.
  pose proof (returned_length eps b H1 p Hp) as R. fold s in R.
  assert (G : (length (free_vars eps b) < bb_dim b)%nat); [|lia].
  unfold free_vars. rewrite <- (seq_length (bb_dim b) 0) at 2.
  assert (Hin : In i (seq 0 (bb_dim b))) by (apply in_seq; lia). revert Hin. generalize (seq 0 (bb_dim b)). clear - Hf.
  induction l as [|a l IH]; intros H; [destruct H|]. cbn [filter length].
  assert (W : forall l : list nat, (length (filter (fun i => negb (fixedb eps b i)) l) <= length l)%nat).
  { induction l0 as [|x r IHr]; cbn; [lia|]. destruct (negb _); cbn; lia. }
  destruct H as [->|H].
  - rewrite Hf. cbn. specialize (W l). lia.
  - specialize (IH H). destruct (negb (fixedb eps b a)); cbn [length]; lia.
Qed.
Print Assumptions C24_dimension_refuted.
Theorem C24_without_fixed : forall eps b, well_formed b -> cat_ordered eps b ->
  (forall i, (i < bb_dim b)%nat -> fixedb eps b i = false) ->
  let s := construct_problem eps b in forall p, one_hot eps b p ->
  length (returned_point s p) = bb_dim b /\ returned_point s p = bb_point s p.
Proof.
  intros eps b H1 H2 H3 s p Hp.
  assert (F : free_vars eps b = seq 0 (bb_dim b)).
  { unfold free_vars. assert (G : forall i, In i (seq 0 (bb_dim b)) -> negb (fixedb eps b i) = true).
    { intros i Hi. apply in_seq in Hi. rewrite H3 by lia. reflexivity. }
    revert G. generalize (seq 0 (bb_dim b)). clear. induction l as [|a l IH]; intros G; [reflexivity|].
    cbn [filter]. rewrite (G a) by (left; reflexivity). f_equal. apply IH. intros i Hi; apply G; right; exact Hi. }
  assert (HL : length p = s_dim s) by (destruct Hp as [HL _]; rewrite HL; symmetry; apply dim_spec; assumption).
  pose proof (returned_agrees eps b H1 H2 p Hp) as R. fold s in R.
  destruct (fixed_spec eps b H1 p HL) as (BL & _). fold s in BL.
  assert (E : returned_point s p = bb_point s p).
  { rewrite R, F, <- BL. apply CatProofs.take_seq. }
  split; [rewrite E; exact BL|exact E].
Qed.
Print Assumptions C24_without_fixed.
Example C24_case : let s := construct_problem eps0 bb0 in let p := [7#2; 5; 1; 0; 0; 1; 0; 0; 1; 0] in
  one_hot eps0 bb0 p /\ returned_point s p = [7#2; 1 + 2; 5; 0 + 1; 1] /\ fixedb eps0 bb0 1 = true.
Proof.
  cbn zeta. split; [|split; reflexivity]. split; [reflexivity|]. intros k Hk. change (length (cat_vars eps0 bb0)) with 2%nat in Hk.
  destruct k as [|[|k]]; [exists 2%nat|exists 1%nat|lia].
  - split; [vm_compute; lia|]. split; [reflexivity|]. intros j Hj Hn. change (num_values bb0 (nth 0 (cat_vars eps0 bb0) 0%nat)) with 4%nat in Hj.
    destruct j as [|[|[|[|j]]]]; try lia; vm_compute; discriminate.
  - split; [vm_compute; lia|]. split; [reflexivity|]. intros j Hj Hn. change (num_values bb0 (nth 1 (cat_vars eps0 bb0) 0%nat)) with 3%nat in Hj.
    destruct j as [|[|[|j]]]; try lia; vm_compute; discriminate.
Qed.

(** ** C25 *)
(** Every point of the original space has a code; decoding it (either way) gives it back. *)
Theorem C25_round_trip : forall eps b, well_formed b -> cat_ordered eps b ->
  let s := construct_problem eps b in forall x, representable eps b x ->
  let code := expand s (values_at (free_vars eps b) x) in
  one_hot eps b code /\ same_point (bb_point s code) x /\
  same_point (returned_point s code) (values_at (free_vars eps b) x).
Proof. intros eps b H1 H2 s x Hx. exact (round_trip eps b H1 H2 x Hx). Qed.
Print Assumptions C25_round_trip.
(** The two decoders agree on every code (compression is what [returned_point] uses). *)
Theorem C25_decoders_agree : forall eps b, well_formed b -> cat_ordered eps b ->
  let s := construct_problem eps b in forall p, one_hot eps b p -> decode_objfun s p = returned_point s p.
Proof. intros eps b H1 H2 s p Hp. apply CatCodes.decode_agree. apply one_hot_active; assumption. Qed.
Print Assumptions C25_decoders_agree.
(** They do not agree on points with two active entries in a block. *)
Theorem C25_decoders_differ_off_codes_refuted :
  let s := construct_problem eps0 bb0 in exists p, length p = s_dim s /\ decode_objfun s p <> returned_point s p.
Proof. exists [7#2; 5; 1; 1; 0; 1; 0; 0; 1; 0]. split; [reflexivity|]. vm_compute. discriminate. Qed.
Print Assumptions C25_decoders_differ_off_codes_refuted.
Example C25_case : representable eps0 bb0 [7#2; 3; 3; 5; 1; 0].
Proof.
  split; [reflexivity|]. split.
  - intros i Hi. change (bb_dim bb0) with 6%nat in Hi. destruct i as [|[|[|[|[|[|i]]]]]]; try lia; intros H; vm_compute in H; try discriminate. reflexivity.
  - intros i Hi. vm_compute in Hi. destruct Hi as [<-|[<-|[]]].
    + exists 2%Z. repeat split; vm_compute; discriminate.
    + exists 1%Z. repeat split; vm_compute; discriminate.
Qed.

(** ** C26 *)
Theorem C26_encoding_structure : forall eps b, well_formed b -> cat_ordered eps b ->
  let s := construct_problem eps b in
  s_dim s = encoded_dim eps b /\ length (s_upper s) = encoded_dim eps b /\
  s_lower s = values_at (plain_vars eps b) (bb_lower b) ++ repeat 0 (total_values b (cat_vars eps b)) /\
  s_upper s = values_at (plain_vars eps b) (bb_upper b) ++ repeat 1 (total_values b (cat_vars eps b)) /\
  map snd (s_expansion s) =
    map (fun k => seq (block_start eps b k) (num_values b (nth k (cat_vars eps b) 0%nat))) (seq 0 (length (cat_vars eps b))) /\
  concat (map snd (s_expansion s)) = seq (length (plain_vars eps b)) (total_values b (cat_vars eps b)) /\
  (forall k, In k (s_ints s) <->
     ((k < length (plain_vars eps b))%nat /\ vtype_of b (nth k (plain_vars eps b) 0%nat) <> VReal) \/
     (length (plain_vars eps b) <= k < encoded_dim eps b)%nat).
Proof. intros eps b H1 H2. exact (structure eps b H1 H2). Qed.
Print Assumptions C26_encoding_structure.
Example C26_case : let s := construct_problem eps0 bb0 in
  map snd (s_expansion s) = [[3; 4; 5; 6]; [7; 8; 9]]%nat /\ s_ints s = [1; 2; 3; 4; 5; 6; 7; 8; 9]%nat /\
  s_upper s = [5; 6; 1; 1; 1; 1; 1; 1; 1; 1].
Proof. repeat split. Qed.

(** ** C27 *)
Theorem C27_compressed_bounds : forall eps b, well_formed b -> cat_ordered eps b ->
  let s := construct_problem eps b in let free := free_vars eps b in
  (forall i, (i < length free)%nat -> nth i (compress_bounds s (s_lower s)) 0 = lower b (nth i free 0%nat)) /\
  (forall i, (i < length free)%nat ->
     (categoricalb b (nth i free 0%nat) = true -> exists z, upper b (nth i free 0%nat) - lower b (nth i free 0%nat) == inject_Z z) ->
     nth i (compress_bounds s (s_upper s)) 0 == upper b (nth i free 0%nat)) /\
  length (compress_bounds s (s_lower s)) = length free /\ length (compress_bounds s (s_upper s)) = length free /\
  compress_ints s (s_ints s) = filter (fun i => negb (is_real (vtype_of b (nth i free 0%nat)))) (seq 0 (length free)).
Proof. intros eps b H1 H2. exact (compress_spec eps b H1 H2). Qed.
Print Assumptions C27_compressed_bounds.
Example C27_case : let s := construct_problem eps0 bb0 in
  compress_bounds s (s_lower s) = [0; 1; 2; 0; 0] /\ Forall2 Qeq (compress_bounds s (s_upper s)) [5; 4; 6; 2; 1] /\
  compress_ints s (s_ints s) = [1; 2; 3; 4]%nat.
Proof. cbn zeta. split; [reflexivity|]. split; [repeat constructor|reflexivity]. Qed.

(** ** C88 *)
(** A user-supplied starting point is accepted exactly when it omits the fixed variables... *)
Theorem C88_accepted_dimension : forall eps b, well_formed b -> cat_ordered eps b ->
  let s := construct_problem eps b in forall p,
  (exists q, user_point s p = Some q) <-> length p = length (free_vars eps b).
Proof. intros eps b H1 H2 s p. exact (user_point_accepts eps b H1 p). Qed.
Print Assumptions C88_accepted_dimension.
(** ... and then the black box is called at exactly that point, completed by the fixed values. *)
Theorem C88_evaluated_at_user_point : forall eps b, well_formed b -> cat_ordered eps b ->
  let s := construct_problem eps b in forall x q, representable eps b x ->
  (forall i, (i < bb_dim b)%nat -> vtype_of b i = VInt \/ vtype_of b i = VCat -> exists z, nth i x 0 == inject_Z z) ->
  user_point s (values_at (free_vars eps b) x) = Some q -> same_point (bb_point s q) x.
Proof. intros eps b H1 H2 s x q. exact (user_point_exact eps b H1 H2 x q). Qed.
Print Assumptions C88_evaluated_at_user_point.
(** Points of the black box's dimension are rejected as soon as one variable is fixed. *)
Theorem C88_full_dimension_rejected_refuted :
  let s := construct_problem eps0 bb0 in length [7#2; 3; 3; 5; 1; 0] = bb_dim bb0 /\
  user_point s [7#2; 3; 3; 5; 1; 0] = None.
Proof. split; reflexivity. Qed.
Print Assumptions C88_full_dimension_rejected_refuted.
Example C88_case : let s := construct_problem eps0 bb0 in
  exists q, user_point s [7#2; 3; 5; 1; 0] = Some q /\ same_point (bb_point s q) [7#2; 3; 3; 5; 1; 0].
Proof.
  cbn zeta. eexists. split; [reflexivity|]. split; [reflexivity|]. intros i Hi. change (length _) with 6%nat in Hi.
  destruct i as [|[|[|[|[|[|i]]]]]]; try lia; reflexivity.
Qed.
