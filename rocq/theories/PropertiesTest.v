(** * Properties of the test black boxes *)
From Verif Require Import TestBBProofs.
From Coq Require Import Permutation Lqa Lia.
Open Scope Q_scope.

(** C81.  Whatever the function, the point and the draws: the triple (value, lower variation,
    upper variation) returned by the noisy evaluation brackets the accurate value, in the sense
    required of error intervals by the optimizer (lower <= 0 <= upper); the accurate value is an
    end point of the bracket; and when the draws respect the declared maximum relative error [R]
    and absolute error [A], value and interval are off by at most [R |f p| + A]. *)
Theorem C81_noisy_brackets_truth : forall (f : point -> Q) (rel ab : Q) (p : point) (v el eu : Q),
  evaluate_noisy f rel ab p = (v, el, eu) ->
  el <= 0 <= eu /\
  v + el <= evaluate_accurate f p <= v + eu /\
  (evaluate_accurate f p == v + el \/ evaluate_accurate f p == v + eu) /\
  forall R A, 0 <= R -> 0 <= A -> - R <= rel <= R -> - A <= ab <= A ->
    Qabs (v - evaluate_accurate f p) <= R * Qabs (evaluate_accurate f p) + A /\
    eu - el <= 2 * (R * Qabs (evaluate_accurate f p) + A).
Proof.
  intros f rel ab p v el eu H. destruct (noisy_brackets _ _ _ _ _ _ _ H) as (A1 & A2 & A3).
  split; [exact A1|]. split; [exact A2|]. split; [exact A3|]. intros R A HR HA Hr Ha.
  destruct (noisy_size _ _ _ _ _ _ _ R A HR HA Hr Ha H) as (B1 & B2 & B3).
  unfold evaluate_accurate. split; [exact B1|]. rewrite B3. lra.
Qed.
Print Assumptions C81_noisy_brackets_truth.
(** f p = -4, draws -1/10 and 1/5: value -21/5, interval [-1/5, 1/5], with R = 1/5, A = 1/5. *)
Example C81_case : let f := fun p : point => nth 0 p 0 - 5 in
  exists v el eu, evaluate_noisy f (- (1#10)) (1#5) [1] = (v, el, eu) /\ v == - (21#5) /\ el == - (1#5) /\ eu == 1#5 /\
  evaluate_accurate f [1] == -4.
Proof. do 3 eexists. split; [reflexivity|]. repeat split; vm_compute; reflexivity. Qed.

(** C82.  For every proper test function, every dimension multiplier of at least one and every
    random draw of the constructor: at any point of the enlarged domain the original function is
    evaluated (for each copy and for the coupled point) only inside its own domain, the evaluation
    never raises, the documented optimum is in the enlarged domain and is given the documented
    value; if the documented value is the minimum of the original function, it is the minimum of the
    enlarged one. *)
Theorem C82_enlarged_keeps_optimum : forall (f : fn) (d : nat) (pm : list nat) (rows : list (list nat)) (ws : list Z),
  proper_fn f -> draws f d pm rows ws -> (1 <= d)%nat ->
  f_eval f (f_opt f) == f_optval f ->
  let e := enlarge f d pm rows ws in
  (forall x, in_domain (e_lo e) (e_up e) (e_type e) x ->
     (forall i, (i < d)%nat -> in_domain (f_lo f) (f_up f) (f_type f) (copy e x i)) /\
     exists y, coupled e x = Some y /\ in_domain (f_lo f) (f_up f) (f_type f) y /\
     exists v, evaluate_enlarged e x = Some v) /\
  in_domain (e_lo e) (e_up e) (e_type e) (e_opt e) /\
  (exists v, evaluate_enlarged e (e_opt e) = Some v /\ v == f_optval f) /\
  ((forall p, in_domain (f_lo f) (f_up f) (f_type f) p -> f_optval f <= f_eval f p) ->
   forall x, in_domain (e_lo e) (e_up e) (e_type e) x ->
   exists v, evaluate_enlarged e x = Some v /\ f_optval f <= v).
Proof.
  intros f d pm rows ws WF DR Hd Ho e. split.
  { intros x Hx. split; [intros i Hi; now apply (copy_in_domain f d pm rows ws WF DR)|].
    destruct (coupled_domain f d pm rows ws WF DR Hd x Hx) as (y & Hy & Dy). exists y. split; [exact Hy|]. split; [exact Dy|].
    unfold evaluate_enlarged. fold e in Hy. rewrite Hy.
    assert (L : length x = e_dim e).
    { destruct Hx as (L & _). unfold e_lo in L. now rewrite spread_length in L. }
    rewrite L, Nat.eqb_refl. cbn [option_map]. eauto. }
  split; [exact (opt_in_domain f d pm rows ws WF Hd)|].
  split; [exact (enlarged_optimum f d pm rows ws WF DR Hd Ho)|].
  intros Hm x Hx. exact (enlarged_lower_bound f d pm rows ws WF DR Hd x Hx Hm).
Qed.
Print Assumptions C82_enlarged_keeps_optimum.

(** One real, one integer and one categorical variable, two copies, genuinely mixing draws. *)
Definition c82_fn : fn := mkFn 3 [0;0;0] [10;5;3] [VR;VI;VC] [2;3;1] 0
  (fun p => (nth 0 p 0 - 2)*(nth 0 p 0 - 2) + (nth 1 p 0 - 3)*(nth 1 p 0 - 3) + (nth 2 p 0 - 1)*(nth 2 p 0 - 1)).
Lemma c82_proper : proper_fn c82_fn.
Proof.
  constructor; try reflexivity; try (cbn; lia).
  - intros [|[|[|j]]] H; cbn in *; try lia; reflexivity.
  - intros [|[|[|j]]] H T; cbn in *; try lia; try congruence; split; [exists 0%Z|exists 5%Z|exists 0%Z|exists 3%Z]; reflexivity.
  - intros [|[|[|j]]] H T; cbn in *; try lia; try congruence; discriminate.
  - split; [reflexivity|]. intros [|[|[|j]]] H; cbn in *; try lia; (split; [split; discriminate|]); intros T; try congruence;
    [exists 3%Z|exists 1%Z]; reflexivity.
  - intros p q H. cbn.
    assert (N : forall j, nth j p 0 == nth j q 0).
    { induction H; intros [|j]; cbn; try reflexivity; auto. }
    rewrite (N 0%nat), (N 1%nat), (N 2%nat). reflexivity.
Qed.
Lemma c82_draws : draws c82_fn 2 [3;1;5;0;2;4]%nat [[0;1];[2;3];[4;5]]%nat [2;5]%Z.
Proof.
  constructor; try reflexivity.
  - cbn. apply NoDup_Permutation; [repeat constructor; cbn; intuition discriminate|repeat constructor; cbn; intuition discriminate|].
    intros x; cbn; intuition.
  - repeat constructor.
  - repeat constructor; discriminate.
Qed.
Example C82_case : proper_fn c82_fn /\ draws c82_fn 2 [3;1;5;0;2;4]%nat [[0;1];[2;3];[4;5]]%nat [2;5]%Z /\
  f_eval c82_fn (f_opt c82_fn) == f_optval c82_fn /\
  let e := enlarge c82_fn 2 [3;1;5;0;2;4]%nat [[0;1];[2;3];[4;5]]%nat [2;5]%Z in
  e_up e = [10;5;3;10;3;5] /\ e_opt e = [2;3;1;2;1;3] /\
  copy e [7;4;2;1;0;5] 0 = [1;4;0] /\
  match evaluate_enlarged e [7;4;2;1;0;5] with Some v => 0 < v | None => False end.
Proof. split; [exact c82_proper|]. split; [exact c82_draws|]. repeat split; vm_compute; reflexivity. Qed.
Print Assumptions C82_case.
