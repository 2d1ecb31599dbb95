(** C143: the benchmark functions with categorical variables extend the plain
    functions they are named after. *)
From Coq Require Import List String ZArith QArith Reals Qreals Lra Lia Bool.
From Verif Require Import ModelBenchData ModelBench SpecBench BenchBase BenchOpt.
Import ListNotations.
Open Scope R_scope.

Lemma pick_hit : forall v k g l y, v = IZR k -> pick v ((k, g) :: l) y = g y.
Proof. intros v k g l y H. cbn. destruct (Req_EM_T v (IZR k)); [reflexivity|contradiction]. Qed.
Lemma pick_miss : forall v k g l y, v <> IZR k -> pick v ((k, g) :: l) y = pick v l y.
Proof. intros v k g l y H. cbn. destruct (Req_EM_T v (IZR k)); [contradiction|reflexivity]. Qed.

Ltac picks := cbn [pick]; repeat (destruct (Req_EM_T _ _) as [?|?]; try (exfalso; lra)).

Lemma oneof_true : forall v l, (exists k, In k l /\ v = IZR k) -> holds (OneOf v l) = true.
Proof.
  intros v l [k [I E]]. cbn. apply existsb_exists. exists k. split; [exact I|].
  destruct (Req_EM_T v (IZR k)); [reflexivity|contradiction].
Qed.

Lemma Int_part_IZR : forall k, Int_part (IZR k) = k.
Proof.
  intros k. unfold Int_part. rewrite <- (tech_up (IZR k) (k + 1)); [lia| |]; rewrite plus_IZR; lra.
Qed.

Ltac by_length p n := destruct (Nat.eq_dec (List.length p) n) as [Hl|Hl];
  [|unfold evaluate; rewrite ?app_length; cbn [List.length];
    rewrite (proj2 (Nat.eqb_neq _ _)) by (cbn; lia);
    rewrite (proj2 (Nat.eqb_neq _ _)) by (cbn; lia); reflexivity].

Lemma evaluate_at : forall b p, List.length p = b_dim b -> evaluate b p = b_f b (fun i => nth i p 0).
Proof. intros b p H. unfold evaluate. rewrite H, Nat.eqb_refl. reflexivity. Qed.

Lemma rsum_eq : forall n f g, (forall i, (i < n)%nat -> f i = g i) -> rsum n f = rsum n g.
Proof. induction n; intros f g H; [reflexivity|]. cbn. rewrite (IHn f g), (H n); auto. Qed.
Lemma rprod_eq : forall n f g, (forall i, (i < n)%nat -> f i = g i) -> rprod n f = rprod n g.
Proof. induction n; intros f g H; [reflexivity|]. cbn. rewrite (IHn f g), (H n); auto. Qed.

Lemma fam_branin : forall p, evaluate branin_cat (p ++ [0]) = evaluate branin p.
Proof.
  intros p. by_length p 2%nat. destruct p as [|a [|b [|]]]; try discriminate.
  cbn [app]. rewrite !evaluate_at by reflexivity. cbn [branin_cat branin b_f].
  unfold branin_cat_f_eval, branin_f_eval, guard. cbn [nth forallb].
  rewrite (oneof_true 0) by (exists 0%Z; cbn; tauto). cbn [andb].
  rewrite pick_hit by reflexivity. reflexivity.
Qed.

Lemma fam_hartman3 : forall p, evaluate hartman3_cat (p ++ [1]) = evaluate hartman3 p.
Proof.
  intros p. by_length p 3%nat. destruct p as [|a [|b [|c [|]]]]; try discriminate.
  cbn [app]. rewrite !evaluate_at by reflexivity. cbn [hartman3_cat hartman3 b_f].
  unfold hartman3_cat_f_eval, hartman3_f_eval, guard, row. cbn [nth forallb holds].
  change 1 with (IZR 1). rewrite Int_part_IZR. cbn [Z.leb Z.ltb Z.compare Pos.compare Pos.compare_cont andb].
  f_equal.
Qed.

Lemma fam_hartman6 : forall p, evaluate hartman6_cat (0 :: p) = evaluate hartman6 p.
Proof.
  intros p. by_length p 6%nat. destruct p as [|x0 [|x1 [|x2 [|x3 [|x4 [|x5 [|]]]]]]]; try discriminate.
  rewrite !evaluate_at by reflexivity. cbn [hartman6_cat hartman6 b_f].
  unfold hartman6_cat_f_eval, hartman6_f_eval, guard, row. cbn [nth forallb holds].
  change 0 with (IZR 0) at 1 2 3. rewrite Int_part_IZR.
  cbn [Z.leb Z.ltb Z.compare Pos.compare Pos.compare_cont andb].
  f_equal.
Qed.

Lemma fam_ex8_1_1 : forall p, evaluate ex8_1_1_cat (p ++ [1; 1]) = evaluate ex8_1_1 p.
Proof.
  intros p. by_length p 2%nat. destruct p as [|a [|b [|]]]; try discriminate.
  cbn [app]. rewrite !evaluate_at by reflexivity. cbn [ex8_1_1_cat ex8_1_1 b_f].
  unfold ex8_1_1_cat_f_eval, ex8_1_1_f_eval, guard. cbn [nth forallb].
  rewrite !(oneof_true 1) by (exists 1%Z; cbn; tauto). cbn [andb].
  picks. reflexivity.
Qed.

Lemma fam_gear4 : forall p k, evaluate gear4_cat (p ++ [k]) = evaluate gear4 p.
Proof.
  intros p k. by_length p 5%nat. destruct p as [|x0 [|x1 [|x2 [|x3 [|x4 [|]]]]]]; try discriminate.
  cbn [app]. rewrite !evaluate_at by reflexivity. reflexivity.
Qed.

Lemma fam_nvs07 : forall p, evaluate nvs07_cat (p ++ [4]) = evaluate nvs07 p.
Proof.
  intros p. by_length p 3%nat. destruct p as [|a [|b [|c [|]]]]; try discriminate.
  cbn [app]. rewrite !evaluate_at by reflexivity. cbn [nvs07_cat nvs07 b_f].
  unfold nvs07_cat_f_eval, nvs07_f_eval, guard. cbn [nth forallb].
  rewrite (oneof_true 4) by (exists 4%Z; cbn; tauto). cbn [andb].
  picks. reflexivity.
Qed.

Lemma when_hit : forall v k c, v = IZR k -> holds (When v k c) = holds c.
Proof. intros v k c H. cbn. destruct (Req_EM_T v (IZR k)); [reflexivity|contradiction]. Qed.
Lemma when_miss : forall v k c, v <> IZR k -> holds (When v k c) = true.
Proof. intros v k c H. cbn. destruct (Req_EM_T v (IZR k)); [contradiction|reflexivity]. Qed.

Lemma fam_nvs09 : forall p, evaluate nvs09_cat (p ++ [3]) = evaluate nvs09 p.
Proof.
  intros p. by_length p 10%nat.
  destruct p as [|x0 [|x1 [|x2 [|x3 [|x4 [|x5 [|x6 [|x7 [|x8 [|x9 [|]]]]]]]]]]]; try discriminate.
  cbn [app]. rewrite !evaluate_at by reflexivity. cbn [nvs09_cat nvs09 b_f].
  unfold nvs09_cat_f_eval, nvs09_f_eval, guard. cbn [nth].
  assert (E : forall y, pick 3 [(0%Z, fun y => sqrt y); (1%Z, fun y => Rabs y);
     (2%Z, fun y => 1 / (y - 9 / 10)); (3%Z, fun y => ln y); (4%Z, fun y => y - 2)] y = ln y)
    by (intros y; rewrite !pick_miss by lra; rewrite pick_hit by reflexivity; reflexivity).
  rewrite !E.
  cbn [seq flat_map app forallb nth].
  rewrite (oneof_true 3) by (exists 3%Z; cbn; tauto).
  rewrite !(when_miss 3 0) by lra. rewrite !(when_miss 3 2) by lra. rewrite !(when_hit 3 3) by reflexivity.
  cbn [andb]. reflexivity.
Qed.

Lemma fam_st_miqp1 : forall p, evaluate st_miqp1_cat (0 :: p) = evaluate st_miqp1 p.
Proof.
  intros p. by_length p 5%nat. destruct p as [|x0 [|x1 [|x2 [|x3 [|x4 [|]]]]]]; try discriminate.
  rewrite !evaluate_at by reflexivity. cbn [st_miqp1_cat st_miqp1 b_f].
  unfold st_miqp1_cat_f_eval, st_miqp1_f_eval, guard, row. cbn [nth forallb holds].
  change 0 with (IZR 0) at 1 2 3 4. rewrite Int_part_IZR.
  cbn [Z.leb Z.ltb Z.compare Pos.compare Pos.compare_cont andb].
  f_equal. f_equal. f_equal. f_equal.
  cbn. unfold entry, last_entry, Q2R. cbn. lra.
Qed.

Lemma schoen_prod_eq : forall w w' i, (forall i j, (j < 50)%nat -> w i j = w' i j) ->
  schoen_prod w i = schoen_prod w' i.
Proof.
  intros w w' i H. unfold schoen_prod. apply rprod_eq. intros j Hj.
  destruct (Nat.eqb i j); [reflexivity|apply H, Hj].
Qed.

Lemma forallb_app_true : forall A (f : A -> bool) l l', forallb f l' = true ->
  forallb f (l ++ l') = forallb f l.
Proof. intros A f l l' H. rewrite forallb_app, H. apply andb_true_r. Qed.

Lemma schoen_cat_plain : forall z f n (x : nat -> R), x 0%nat = 0 -> x 1%nat = 2 ->
  schoen_cat z f n x = schoen z f n 1 (fun k => x (2 + k)%nat).
Proof.
  intros z f n x H0 H1. unfold schoen_cat, schoen.
  set (w := fun i j : nat => rsum n _).
  set (w' := fun i j : nat => rsum n (fun k => (x (2 + k)%nat / 1 - _) ^ 2)).
  assert (W : forall i j, (j < 50)%nat -> w i j = w' i j).
  { intros i j _. unfold w, w'. apply rsum_eq. intros k _. rewrite H0, H1.
    rewrite pick_hit by reflexivity. rewrite !pick_miss by lra. rewrite pick_hit by reflexivity.
    unfold Rdiv. rewrite Rinv_1, Rmult_1_r. destruct (Nat.ltb i 25); reflexivity. }
  assert (S1 : rsum 50 (schoen_prod w) = rsum 50 (schoen_prod w'))
    by (apply rsum_eq; intros i _; apply schoen_prod_eq, W).
  assert (V : schoen_value w f = schoen_value w' f).
  { unfold schoen_value. rewrite S1. f_equal. apply rsum_eq. intros i _. f_equal. apply schoen_prod_eq, W. }
  unfold guard. rewrite forallb_app_true.
  - cbn [forallb]. rewrite H0, H1. rewrite (oneof_true 0) by (exists 0%Z; cbn; tauto).
    rewrite (oneof_true 2) by (exists 2%Z; cbn; tauto). cbn [andb]. rewrite S1, V. reflexivity.
  - apply forallb_forall. intros c Hc. apply in_flat_map in Hc. destruct Hc as [j [_ Hc]].
    apply in_flat_map in Hc. destruct Hc as [k [_ Hc]].
    destruct Hc as [<-|[<-|[]]]; apply when_miss; rewrite ?H0, ?H1; lra.
Qed.

Lemma fam_schoen : forall z f c b, b_dim c = 12%nat -> b_dim b = 10%nat ->
  b_f c = schoen_cat z f 10 -> b_f b = schoen z f 10 1 ->
  forall p, evaluate c (0 :: 2 :: p) = evaluate b p.
Proof.
  intros z f c b D1 D2 F1 F2 p. unfold evaluate. rewrite D1, D2. cbn [List.length Nat.eqb].
  destruct (List.length p =? 10)%nat; [|reflexivity].
  rewrite F1, F2, schoen_cat_plain by reflexivity. reflexivity.
Qed.

(** ** The extended points are points of the larger space *)
Definition extends (before after : list Q) (c b : bench) : Prop :=
  b_dim c = (List.length before + b_dim b + List.length after)%nat /\
  exists l u lo up,
    b_lo c = (l ++ b_lo b ++ lo)%list /\ b_up c = (u ++ b_up b ++ up)%list /\
    exists t t', b_type c = (t ++ b_type b ++ t')%list /\
    List.length l = List.length before /\ List.length u = List.length before /\ List.length t = List.length before /\
    List.length (b_lo b) = b_dim b /\ List.length (b_up b) = b_dim b /\ List.length (b_type b) = b_dim b /\
    (forall i, (i < List.length before)%nat ->
       (nth i l 0 <= nth i before 0 <= nth i u 0)%Q /\ Qden (nth i before 0%Q) = 1%positive) /\
    (forall i, (i < List.length after)%nat ->
       (nth i lo 0 <= nth i after 0 <= nth i up 0)%Q /\ Qden (nth i after 0%Q) = 1%positive).

Lemma whole_den : forall q, Qden q = 1%positive -> exists k, Q2R q = IZR k.
Proof. intros [n d] H. cbn in H. subst d. exists n. unfold Q2R. cbn. field. Qed.

Lemma nth_Q2R : forall l i, nth i (map Q2R l) 0 = Q2R (nth i l 0%Q).
Proof. intros l i. replace 0 with (Q2R 0) at 1 by (unfold Q2R; cbn; lra). apply map_nth. Qed.

Lemma extends_space : forall before after c b p, extends before after c b -> in_space b p ->
  in_space c (map Q2R before ++ p ++ map Q2R after)%list.
Proof.
  intros bf af c b p (D & l & u & lo & up & E1 & E2 & t & t' & E3 & L1 & L2 & L3 & L4 & L5 & L6 & B & A) [Lp Hp].
  split; [rewrite !app_length, !map_length, Lp, D; lia|].
  intros i Hi. rewrite E1, E2, E3.
  destruct (Nat.lt_ge_cases i (List.length bf)) as [C|C].
  - rewrite !app_nth1 by (rewrite ?map_length; lia). rewrite nth_Q2R. destruct (B i C) as [[Q1 Q2] W].
    split; [split; apply Qle_Rle; assumption|]. intros _. apply whole_den, W.
  - rewrite (app_nth2 l), (app_nth2 u), (app_nth2 t), (app_nth2 (map Q2R bf)) by (rewrite ?map_length; lia).
    rewrite map_length, L1, L2, L3.
    destruct (Nat.lt_ge_cases (i - List.length bf) (b_dim b)) as [C2|C2].
    + rewrite !app_nth1 by lia. apply Hp, C2.
    + rewrite !app_nth2 by lia. rewrite L4, L5, L6, Lp, nth_Q2R.
      destruct (A (i - List.length bf - b_dim b)%nat ltac:(lia)) as [[Q1 Q2] W].
      split; [split; apply Qle_Rle; assumption|]. intros _. apply whole_den, W.
Qed.

Ltac small_nth := intros [|[|[|?]]] ?; cbn in *; try lia; repeat split; try reflexivity; try (unfold Qle; cbn; lia).
Ltac ext l u lo up t t' := split; [reflexivity|]; exists l%Q, u%Q, lo%Q, up%Q; split; [reflexivity|]; split; [reflexivity|];
  exists t, t'; split; [reflexivity|]; repeat (split; [reflexivity|]); split; small_nth.

Lemma ext_branin : extends [] [0%Q] branin_cat branin.
Proof. ext (@nil Q) (@nil Q) [0%Q] [3%Q] (@nil vtype) [TC]. Qed.
Lemma ext_hartman3 : extends [] [1%Q] hartman3_cat hartman3.
Proof. ext (@nil Q) (@nil Q) [0%Q] [4%Q] (@nil vtype) [TC]. Qed.
Lemma ext_hartman6 : extends [0%Q] [] hartman6_cat hartman6.
Proof. ext [0%Q] [4%Q] (@nil Q) (@nil Q) [TC] (@nil vtype). Qed.
Lemma ext_ex8_1_1 : extends [] [1%Q; 1%Q] ex8_1_1_cat ex8_1_1.
Proof. ext (@nil Q) (@nil Q) [0%Q; 0%Q] [3%Q; 3%Q] (@nil vtype) [TC; TC]. Qed.
Lemma ext_nvs07 : extends [] [4%Q] nvs07_cat nvs07.
Proof. ext (@nil Q) (@nil Q) [2%Q] [4%Q] (@nil vtype) [TC]. Qed.
Lemma ext_nvs09 : extends [] [3%Q] nvs09_cat nvs09.
Proof. ext (@nil Q) (@nil Q) [0%Q] [4%Q] (@nil vtype) [TC]. Qed.
Lemma ext_st_miqp1 : extends [0%Q] [] st_miqp1_cat st_miqp1.
Proof. ext [0%Q] [5%Q] (@nil Q) (@nil Q) [TC] (@nil vtype). Qed.
Lemma ext_gear4 : extends [] [0%Q] gear4_cat gear4.
Proof. ext (@nil Q) (@nil Q) [0%Q] [4%Q] (@nil vtype) [TC]. Qed.
Lemma ext_schoen_10_1 : extends [0%Q; 2%Q] [] schoen_10_1_cat schoen_10_1.
Proof. ext [0%Q; 0%Q] [3%Q; 3%Q] (@nil Q) (@nil Q) [TC; TC] (@nil vtype). Qed.
Lemma ext_schoen_10_2 : extends [0%Q; 2%Q] [] schoen_10_2_cat schoen_10_2.
Proof. ext [0%Q; 0%Q] [3%Q; 3%Q] (@nil Q) (@nil Q) [TC; TC] (@nil vtype). Qed.

(** * C143 *)
(** [c] restricted to the points [ext p] is [b]: the same value, or none, for
    every [p], and the points of the space of [b] are carried into that of [c]. *)
Definition restricts_to (c : bench) (ext : list R -> list R) (b : bench) : Prop :=
  (forall p, evaluate c (ext p) = evaluate b p) /\ (forall p, in_space b p -> in_space c (ext p)).

Lemma Q2R_nat : Q2R 0 = 0 /\ Q2R 1 = 1 /\ Q2R 2 = 2 /\ Q2R 3 = 3 /\ Q2R 4 = 4.
Proof. unfold Q2R; cbn; lra. Qed.

Ltac restr e x := split; [intros p; first [apply e | eapply fam_schoen; reflexivity]|];
  intros p Hp; generalize (extends_space _ _ _ _ p x Hp); cbn [map app];
  destruct Q2R_nat as (Z0 & Z1 & Z2 & Z3 & Z4); rewrite ?Z0, ?Z1, ?Z2, ?Z3, ?Z4, ?app_nil_r; exact (fun H => H).

Theorem C143_categorical_extends_plain :
  restricts_to branin_cat (fun p => (p ++ [0])%list) branin /\
  restricts_to hartman3_cat (fun p => (p ++ [1])%list) hartman3 /\
  restricts_to hartman6_cat (fun p => 0 :: p) hartman6 /\
  restricts_to ex8_1_1_cat (fun p => (p ++ [1; 1])%list) ex8_1_1 /\
  restricts_to nvs07_cat (fun p => (p ++ [4])%list) nvs07 /\
  restricts_to nvs09_cat (fun p => (p ++ [3])%list) nvs09 /\
  restricts_to st_miqp1_cat (fun p => 0 :: p) st_miqp1 /\
  restricts_to schoen_10_1_cat (fun p => 0 :: 2 :: p) schoen_10_1 /\
  restricts_to schoen_10_2_cat (fun p => 0 :: 2 :: p) schoen_10_2.
Proof.
  split; [restr fam_branin ext_branin|]. split; [restr fam_hartman3 ext_hartman3|].
  split; [restr fam_hartman6 ext_hartman6|]. split; [restr fam_ex8_1_1 ext_ex8_1_1|].
  split; [restr fam_nvs07 ext_nvs07|]. split; [restr fam_nvs09 ext_nvs09|].
  split; [restr fam_st_miqp1 ext_st_miqp1|]. split; [restr fam_branin ext_schoen_10_1|restr fam_branin ext_schoen_10_2].
Qed.
Print Assumptions C143_categorical_extends_plain.

(** gear4_cat chooses a function by its categorical variable and never uses
    it: the category has no influence, so every category of the optimum point is
    optimal. *)
Theorem C143_gear4_category_ignored :
  restricts_to gear4_cat (fun p => (p ++ [0])%list) gear4 /\
  forall p k k', evaluate gear4_cat (p ++ [k]) = evaluate gear4_cat (p ++ [k']).
Proof. split; [restr fam_gear4 ext_gear4|]. intros p k k'. rewrite !fam_gear4. reflexivity. Qed.
Print Assumptions C143_gear4_category_ignored.

(** The points are points of the declared spaces, with different values in
    different categories. *)
Example C143_case :
  in_space branin (map Q2R [1; 2]%Q) /\ in_space branin_cat (map Q2R [1; 2]%Q ++ [0]) /\
  in_space nvs07_cat (map Q2R [4; 1; 3]%Q ++ [4]) /\
  evaluate nvs07_cat (map Q2R [4; 1; 3]%Q ++ [4]) <> evaluate nvs07_cat (map Q2R [4; 1; 3]%Q ++ [2]).
Proof.
  split; [apply point_ok_space; vm_compute; reflexivity|].
  split; [replace [0] with (map Q2R [0]%Q) by (cbn; f_equal; unfold Q2R; cbn; lra);
          rewrite <- map_app; apply point_ok_space; vm_compute; reflexivity|].
  split; [replace [4] with (map Q2R [4]%Q) by (cbn; f_equal; unfold Q2R; cbn; lra);
          rewrite <- map_app; apply point_ok_space; vm_compute; reflexivity|].
  cbn [map app]. rewrite !evaluate_at by reflexivity. cbn [nvs07_cat b_f].
  unfold nvs07_cat_f_eval, guard. cbn [nth forallb].
  rewrite (oneof_true 4) by (exists 4%Z; cbn; tauto). rewrite (oneof_true 2) by (exists 2%Z; cbn; tauto). cbn [andb].
  picks.
  replace (Q2R 4) with 4 by (unfold Q2R; cbn; lra). replace (Q2R 1) with 1 by (unfold Q2R; cbn; lra).
  replace (Q2R 3) with 3 by (unfold Q2R; cbn; lra).
  rewrite !(Rmax_left 0) by lra. 
  match goal with |- Some ?a <> Some ?b => intros H; assert (D : a = b) by congruence end.
  revert D. unfold Rmax. repeat destruct (Rle_dec _ _); lra.
Qed.
