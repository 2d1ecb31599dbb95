(** C138-C140: the benchmark functions shipped with the package.  Vocabulary:
    [SpecBench]. *)
From Coq Require Import List String ZArith QArith Reals Qreals Lra Lia Bool.
From Verif Require Import ModelBenchData ModelBench SpecBench BenchBase BenchPoly BenchPenalty BenchSearch
  BenchSchoen BenchSchoenCat BenchExp BenchLog BenchOpt BenchRefute BenchExtra BenchSmooth.
Import ListNotations.
Open Scope R_scope.

(** * C138: consistent declarations, evaluation defined on the whole space *)
Definition declared_ok (b : bench) : bool :=
  Nat.eqb (List.length (b_lo b)) (b_dim b) && Nat.eqb (List.length (b_up b)) (b_dim b) &&
  Nat.eqb (List.length (b_type b)) (b_dim b) && point_ok b (b_opt b) &&
  forallb (fun i => negb (Qle_bool (nth i (b_up b) 0%Q) (nth i (b_lo b) 0%Q)) &&
     (is_cont (nth i (b_type b) TR) || (whole_q (nth i (b_lo b) 0%Q) && whole_q (nth i (b_up b) 0%Q))))
    (seq 0 (b_dim b)).

Lemma declared_ok_sound : forall b, declared_ok b = true -> well_declared b.
Proof.
  intros b H. unfold declared_ok in H. rewrite !andb_true_iff in H.
  destruct H as [[[[H1 H2] H3] H4] H5]. apply Nat.eqb_eq in H1, H2, H3.
  repeat split; try assumption; try (apply point_ok_space in H4; apply H4; assumption).
  - rewrite forallb_forall in H5. specialize (H5 i ltac:(apply in_seq; lia)).
    apply andb_true_iff in H5. destruct H5 as [L _]. apply negb_true_iff in L. apply Q2R_lt, L.
  - intros N. rewrite forallb_forall in H5. specialize (H5 i ltac:(apply in_seq; lia)).
    apply andb_true_iff in H5. destruct H5 as [_ W]. apply orb_true_iff in W. destruct W as [W|W].
    + exfalso. apply N. destruct (nth i (b_type b) TR); [reflexivity|discriminate|discriminate].
    + apply andb_true_iff in W. destruct W as [W1 W2].
      destruct (whole_IZR _ W1) as [l Hl], (whole_IZR _ W2) as [u Hu]. exists l, u. tauto.
Qed.

Theorem C138_benchmarks_declared : List.length all_benchmarks = 54%nat /\
  NoDup (map b_name all_benchmarks) /\ forall b, In b all_benchmarks -> well_declared b.
Proof.
  split; [reflexivity|]. split.
  - repeat (constructor; [cbn; intuition discriminate|]). constructor.
  - intros b H. apply declared_ok_sound.
    assert (A : forallb declared_ok all_benchmarks = true) by (vm_compute; reflexivity).
    rewrite forallb_forall in A. apply A, H.
Qed.
Print Assumptions C138_benchmarks_declared.

Lemma all_defined : Forall defined all_benchmarks.
Proof.
  unfold all_benchmarks. repeat (apply Forall_cons || apply Forall_nil);
  first [ exact def_hartman3 | exact def_hartman6 | exact def_camel | exact def_ex4_1_1 | exact def_ex4_1_2
        | exact def_least | exact def_ex8_1_1 | exact def_shekel5 | exact def_shekel7 | exact def_shekel10
        | exact def_hartman3_cat | exact def_hartman6_cat | exact def_ex8_1_1_cat | exact def_nvs09_cat
        | eapply low_defined; first [ exact low_goldsteinprice | exact low_ex8_1_4 | exact low_rbrock | exact low_perm_6
          | exact low_perm0_8 | exact low_gear | exact low_nvs03 | exact low_nvs04 | exact low_nvs07 | exact low_nvs15
          | exact low_nvs16 | exact low_prob03 | exact low_st_miqp3 | exact low_nvs06 | exact low_nvs07_cat | exact low_nvs02
          | exact low_nvs14 | exact low_st_miqp1 | exact low_st_test1 | exact low_st_miqp1_cat | exact low_sport
          | exact low_gear4 | exact low_gear4_cat | exact low_nvs09 | exact low_branin | exact low_branin_cat
          | exact low_schoen_6_1 | exact low_schoen_6_2 | exact low_schoen_10_1 | exact low_schoen_10_2
          | exact low_schoen_6_1_int | exact low_schoen_6_2_int | exact low_schoen_10_1_int | exact low_schoen_10_2_int
          | exact low_schoen_10_1_cat | exact low_schoen_10_2_cat
          | exact low_schaeffer_1 | exact low_schaeffer_2 | exact low_schaeffer_1_cat | exact low_schaeffer_2_cat ] ].
Qed.

Theorem C138_evaluation_defined : forall b p, In b all_benchmarks ->
  (in_space b p -> exists y, evaluate b p = Some y) /\
  (List.length p <> b_dim b -> evaluate b p = None).
Proof.
  intros b p Hb. split.
  - intros [Hl Hp]. pose proof (proj1 (Forall_forall _ _) all_defined b Hb) as D.
    unfold evaluate. rewrite Hl, Nat.eqb_refl. apply D. intros i Hi. apply Hp, Hi.
  - intros N. unfold evaluate. apply Nat.eqb_neq in N. rewrite N. reflexivity.
Qed.
Print Assumptions C138_evaluation_defined.

(** The points of a space are not only the optimum: a corner of nvs09_cat, and a
    point outside its space where the evaluation has no value. *)
Example C138_case : In nvs09_cat all_benchmarks /\
  in_space nvs09_cat (map Q2R [3; 3; 3; 3; 3; 9; 9; 9; 9; 9; 3]%Q) /\
  evaluate nvs09_cat (map Q2R [3; 3; 3; 3; 3; 9; 9; 9; 9; 9; 5]%Q) = None.
Proof.
  split; [unfold all_benchmarks; cbn; tauto|]. split; [apply point_ok_space; vm_compute; reflexivity|].
  unfold evaluate. cbn [nvs09_cat b_dim b_f map List.length Nat.eqb]. unfold nvs09_cat_f_eval, guard. cbn [nth].
  replace (Q2R 5) with 5 by (unfold Q2R; cbn; lra).
  cbn [app forallb]. match goal with |- context [holds ?c && _] => replace (holds c) with false end; [reflexivity|].
  cbn. repeat (destruct (Req_EM_T 5 _) as [E|_]; [exfalso; lra|]). reflexivity.
Qed.

(** * C139: declared optima that are exactly, or to 1e-7, the global minimum *)
Definition exact_benchmarks : list bench :=
  [goldsteinprice; ex8_1_4; rbrock; perm_6; perm0_8; nvs03; nvs04; nvs06; nvs07; nvs14; nvs15; nvs16; prob03;
   sporttournament06; st_miqp1; st_miqp3; st_test1; nvs07_cat; st_miqp1_cat;
   schoen_6_1; schoen_6_2; schoen_10_1; schoen_10_2; schoen_6_1_int; schoen_6_2_int; schoen_10_1_int; schoen_10_2_int;
   schoen_10_1_cat; schoen_10_2_cat; schaeffer_f7_12_1; schaeffer_f7_12_2; schaeffer_f7_12_1_int_cat;
   schaeffer_f7_12_2_int_cat].
Definition near_benchmarks : list bench :=
  [branin; branin_cat; camel; ex8_1_1; gear4; gear4_cat; nvs02; nvs09].

Lemma minimum_of : forall b v, low b v -> v = optimum_value b -> reached b -> point_ok b (b_opt b) = true ->
  is_minimum b (optimum_value b) /\ evaluate b (optimum_point b) = Some (optimum_value b).
Proof.
  intros b v L -> R P. split; [|exact R]. split; [exact (low_never_below b _ L)|].
  exists (optimum_point b). split; [apply point_ok_space, P|exact R].
Qed.

Ltac minimum l a := eapply (minimum_of _ _ l); [unfold optimum_value, Q2R; cbn; lra|exact a|vm_compute; reflexivity].

Theorem C139_declared_optimum_is_minimum : forall b, In b exact_benchmarks ->
  is_minimum b (optimum_value b) /\ evaluate b (optimum_point b) = Some (optimum_value b).
Proof.
  apply Forall_forall. unfold exact_benchmarks. repeat (apply Forall_cons || apply Forall_nil).
  - minimum low_goldsteinprice at_goldsteinprice.
  - minimum low_ex8_1_4 at_ex8_1_4.
  - minimum low_rbrock at_rbrock.
  - minimum low_perm_6 at_perm_6.
  - minimum low_perm0_8 at_perm0_8.
  - minimum low_nvs03 at_nvs03.
  - minimum low_nvs04 at_nvs04.
  - minimum low_nvs06 at_nvs06.
  - minimum low_nvs07 at_nvs07.
  - minimum low_nvs14 at_nvs14.
  - minimum low_nvs15 at_nvs15.
  - minimum low_nvs16 at_nvs16.
  - minimum low_prob03 at_prob03.
  - minimum low_sport at_sport.
  - minimum low_st_miqp1 at_st_miqp1.
  - minimum low_st_miqp3 at_st_miqp3.
  - minimum low_st_test1 at_st_test1.
  - minimum low_nvs07_cat at_nvs07_cat.
  - minimum low_st_miqp1_cat at_st_miqp1_cat.
  - minimum low_schoen_6_1 at_schoen_6_1.
  - minimum low_schoen_6_2 at_schoen_6_2.
  - minimum low_schoen_10_1 at_schoen_10_1.
  - minimum low_schoen_10_2 at_schoen_10_2.
  - minimum low_schoen_6_1_int at_schoen_6_1_int.
  - minimum low_schoen_6_2_int at_schoen_6_2_int.
  - minimum low_schoen_10_1_int at_schoen_10_1_int.
  - minimum low_schoen_10_2_int at_schoen_10_2_int.
  - minimum low_schoen_10_1_cat at_schoen_10_1_cat.
  - minimum low_schoen_10_2_cat at_schoen_10_2_cat.
  - minimum low_schaeffer_1 at_schaeffer_1.
  - minimum low_schaeffer_2 at_schaeffer_2.
  - minimum low_schaeffer_1_cat at_schaeffer_1_cat.
  - minimum low_schaeffer_2_cat at_schaeffer_2_cat.
Qed.
Print Assumptions C139_declared_optimum_is_minimum.

Lemma near_of : forall b v, low b v -> Rabs (v - optimum_value b) <= 1 / 10000000 ->
  (exists y, evaluate b (optimum_point b) = Some y /\ y <= v + 1 / 10000000) ->
  exists v, never_below b v /\ Rabs (v - optimum_value b) <= 1 / 10000000 /\
    exists y, evaluate b (optimum_point b) = Some y /\ y <= v + 1 / 10000000.
Proof. intros b v L C E. exists v. split; [exact (low_never_below b v L)|]. tauto. Qed.

Theorem C139_declared_optimum_near_minimum : forall b, In b near_benchmarks ->
  exists v, never_below b v /\ Rabs (v - optimum_value b) <= 1 / 10000000 /\
    exists y, evaluate b (optimum_point b) = Some y /\ y <= v + 1 / 10000000.
Proof.
  apply Forall_forall. unfold near_benchmarks. repeat (apply Forall_cons || apply Forall_nil).
  - apply (near_of _ _ low_branin); [pose proof branin_close; lra|exact at_branin].
  - apply (near_of _ _ low_branin_cat); [|exact at_branin_cat].
    change (optimum_value branin_cat) with (optimum_value branin). pose proof branin_close. lra.
  - apply (near_of _ _ low_camel); [|exact at_camel]. unfold optimum_value, Q2R. cbn. apply Rabs_le. lra.
  - apply (near_of _ _ low_ex8_1_1); [|exact at_ex8_1_1]. unfold optimum_value, Q2R, mm. cbn. apply Rabs_le. lra.
  - apply (near_of _ _ low_gear4); [unfold optimum_value, Q2R; cbn; apply Rabs_le; lra|].
    destruct at_gear4 as [y [H1 H2]]. exists y. split; [exact H1|]. pose proof (Rle_abs (y - optimum_value gear4)) as H3.
    unfold optimum_value, Q2R in H2, H3. cbn in H2, H3. lra.
  - apply (near_of _ _ low_gear4_cat); [unfold optimum_value, Q2R; cbn; apply Rabs_le; lra|].
    destruct at_gear4_cat as [y [H1 H2]]. exists y. split; [exact H1|]. pose proof (Rle_abs (y - optimum_value gear4_cat)) as H3.
    unfold optimum_value, Q2R in H2, H3. cbn in H2, H3. lra.
  - apply (near_of _ _ low_nvs02); [unfold optimum_value, Q2R; cbn; apply Rabs_le; lra|].
    eexists. split; [exact at_nvs02|]. lra.
  - apply (near_of _ _ low_nvs09); [pose proof nvs09_close; lra|]. eexists. split; [exact at_nvs09|]. lra.
Qed.
Print Assumptions C139_declared_optimum_near_minimum.

(** The minimum of branin is attained, at (PI, 2.275). *)
Theorem C139_branin_attained : is_minimum branin (5 / (4 * PI)) /\ is_minimum branin_cat (5 / (4 * PI)).
Proof.
  split; (split; [apply low_never_below; first [exact low_branin|exact low_branin_cat]|]).
  - exists branin_point. split; [exact branin_in|exact branin_at].
  - exists branin_cat_point. split; [exact branin_cat_in|exact branin_cat_at].
Qed.
Print Assumptions C139_branin_attained.

(** A space with more than one value: goldsteinprice at the origin is far from
    its minimum. *)
Example C139_case : In goldsteinprice exact_benchmarks /\
  exists y, valued goldsteinprice [0; 0]%Q y /\ optimum_value goldsteinprice + 500 < y.
Proof.
  split; [cbn; tauto|]. eexists. split.
  - open_at goldsteinprice goldsteinprice_f_eval. reflexivity.
  - cbn [map nth]. unfold optimum_value, Q2R. cbn. lra.
Qed.

(** * C140: declared optima that are not the global minimum *)
Lemma beaten_of : forall b p m, (exists y, valued b p y /\ y + m <= optimum_value b) -> beaten_by b m.
Proof. intros b p m [y [[H1 H2] H3]]. exists (map Q2R p), y. repeat split; try apply H1; try assumption. lra. Qed.

Theorem C140_declared_optimum_beaten_refuted :
  beaten_by nvs09_cat 2 /\ beaten_by ex4_1_2 (7 / 10000) /\ beaten_by hartman3 (14 / 100000) /\
  beaten_by shekel7 (12 / 100000) /\ beaten_by shekel10 (12 / 100000) /\ beaten_by shekel5 (38 / 10000000) /\
  beaten_by hartman3_cat (2 / 1000000) /\ beaten_by hartman6_cat (4 / 10000000) /\
  beaten_by ex8_1_1_cat (15 / 100000000) /\ beaten_by ex4_1_1 (4 / 1000000000).
Proof.
  repeat split.
  - exact (beaten_of _ _ _ beat_nvs09_cat).
  - exact (beaten_of _ _ _ beat_ex4_1_2).
  - exact (beaten_of _ _ _ beat_hartman3).
  - exact (beaten_of _ _ _ beat_shekel7).
  - exact (beaten_of _ _ _ beat_shekel10).
  - exact (beaten_of _ _ _ beat_shekel5).
  - exact (beaten_of _ _ _ beat_hartman3_cat).
  - exact (beaten_of _ _ _ beat_hartman6_cat).
  - exact (beaten_of _ _ _ beat_ex8_1_1_cat).
  - exact (beaten_of _ _ _ beat_ex4_1_1).
Qed.
Print Assumptions C140_declared_optimum_beaten_refuted.

(** gear: the declared value 0 is reached nowhere, and the declared point is
    not the best one. *)
Theorem C140_gear_refuted :
  never_below gear (27 / 10000000000000) /\
  (exists y, evaluate gear (optimum_point gear) = Some y /\ 6 / 1000000000 <= y) /\
  (exists p y, in_space gear p /\ evaluate gear p = Some y /\ y <= 271 / 100000000000000) /\
  optimum_value gear = 0.
Proof.
  split.
  { intros p Hp. destruct (low_never_below gear _ low_gear_sharp p Hp) as [y [H1 H2]]. exists y. split; [exact H1|lra]. }
  split; [exact gear_declared_point|]. split.
  - destruct gear_best as [y [[H1 H2] H3]]. exists (map Q2R [19; 16; 43; 49]%Q), y. tauto.
  - unfold optimum_value, Q2R. cbn. lra.
Qed.
Print Assumptions C140_gear_refuted.

(** The declared optimum of nvs09_cat is itself a point of the space. *)
Example C140_case : In nvs09_cat all_benchmarks /\ in_space nvs09_cat (optimum_point nvs09_cat).
Proof. split; [unfold all_benchmarks; cbn; tauto|apply point_ok_space; vm_compute; reflexivity]. Qed.
