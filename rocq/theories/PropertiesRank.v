(** * Properties: problems with a single categorical variable (C161) *)
From Coq Require Import Lia Lqa.
From Verif Require Import RankProofs ModelCategorical ModelInit ModelRank.
Open Scope Q_scope.

(** With a Latin hypercube strategy (the default) a problem whose only variable is categorical with [k >= 4] values cannot be started:
    every sample contains the last value, whose row in the tested matrix is zero, so the construction of the sample fails after
    max_random_init attempts.  The only thing assumed of the numerical rank test is that it rejects a matrix with a zero row and no
    more rows than columns (its smallest singular value is 0). *)
Theorem C161_single_categorical_fails_refuted : forall eps_zero ic first k attempts,
  0 <= eps_zero < 1 -> (4 <= k)%nat -> (i_strategy ic = LhdMaximin \/ i_strategy ic = LhdCorr) ->
  let b := mkBB [inject_Z first] [inject_Z (first + Z.of_nat k - 1)] [VCat] in
  let s := construct_problem eps_zero b in
  (forall a, In a attempts -> forall nodes row, In row (tested_matrix eps_zero s nodes) -> (forall x, In x row -> x == 0) ->
     (length (tested_matrix eps_zero s nodes) <= length row)%nat -> a_independent a nodes = false) ->
  initial_sample ic s attempts = InitError.
Proof.
  intros eps ic zl k attempts (E0 & E1) HK HS b s HA. assert (ES : s = single_setup (inject_Z zl) k) by (apply single_construct; (assumption || lia)).
  rewrite ES in *. apply (single_fails eps); try assumption. destruct HS as [-> | ->]; reflexivity.
Qed.
Print Assumptions C161_single_categorical_fails_refuted.

(** A rank test that accepts exactly the matrices with more rows than columns satisfies the assumption. *)
Definition test_by_size (eps : Q) (s : setup) : list point -> bool := fun nodes =>
  let M := tested_matrix eps s nodes in forallb (fun row => (length row <? length M)%nat) M.
Definition b_four : bbox := mkBB [2] [5] [VCat].
Definition b_three : bbox := mkBB [2] [4] [VCat].
Definition att_size (b : bbox) : attempt := mkAttempt [] [] 0 (test_by_size (1#1000000) (construct_problem (1#1000000) b)).
Definition ic_default : init_cfg := mkInit LhdMaximin (1#2) (1#5) 1 true (1#100000) 50.
Example C161_assumption_met : forall b nodes row, let s := construct_problem (1#1000000) b in
  In row (tested_matrix (1#1000000) s nodes) -> (forall x, In x row -> x == 0) -> (length (tested_matrix (1#1000000) s nodes) <= length row)%nat ->
  a_independent (att_size b) nodes = false.
Proof.
  intros b nodes row s Hr _ Hl. cbn [att_size a_independent]. unfold test_by_size. fold s. cbv zeta. apply not_true_is_false. intros H.
  rewrite forallb_forall in H. specialize (H row Hr). apply Nat.ltb_lt in H. lia.
Qed.
(** Four values: failure; three values: accepted, with the three points of the sample (compare [C76_single_variable_refuted]). *)
Example C161_case : initial_sample ic_default (construct_problem (1#1000000) b_four) (repeat (att_size b_four) 50) = InitError /\
  initial_sample ic_default (construct_problem (1#1000000) b_three) (repeat (att_size b_three) 50) = InitOk [[1; 0; 0]; [0; 0; 1]; [0; 1; 0]].
Proof.
  split; [|vm_compute; reflexivity]. apply (C161_single_categorical_fails_refuted (1#1000000) ic_default 2 4); [split; [discriminate|reflexivity]|lia|left; reflexivity|].
  intros a Ha nodes row. apply repeat_spec in Ha. subst a. apply C161_assumption_met.
Qed.
