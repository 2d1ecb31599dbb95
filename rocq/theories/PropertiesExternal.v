(** * C156: runs of the external solvers. *)
From Coq Require Import Reals Lra Lia String ZArith List.
From Verif Require Import SpecExternal.
Import ListNotations.
Open Scope R_scope.

Lemma set_get d k v k' : option_of (set_option d k v) k' = if String.eqb k k' then Some v else option_of d k'.
Proof.
  induction d as [|(a, b) d IH]; cbn; [reflexivity|].
  destruct (String.eqb_spec a k) as [->|N]; cbn; [destruct (String.eqb k k'); reflexivity|].
  destruct (String.eqb_spec a k') as [->|N']; [|apply IH].
  destruct (String.eqb_spec k k') as [->|]; [congruence|reflexivity].
Qed.
Lemma set_list_get l k' : forall d, option_of (set_list d l) k' =
  fold_left (fun o kv => if String.eqb (fst kv) k' then Some (snd kv) else o) l (option_of d k').
Proof.
  unfold set_list. induction l as [|(a, b) l IH]; intros d; cbn [fold_left fst snd]; [reflexivity|].
  rewrite IH, set_get. reflexivity.
Qed.
Lemma untouched (l : options) k' o : ~ In k' (map fst l) ->
  fold_left (fun o kv => if String.eqb (fst kv) k' then Some (snd kv) else o) l o = o.
Proof.
  revert o. induction l as [|(a, b) l IH]; intros o H; cbn in *; [reflexivity|].
  destruct (String.eqb_spec a k') as [->|]; [tauto|]. apply IH. tauto.
Qed.
Lemma minlp_get g d pos k : ~ In k minlp_fixed -> option_of (fst (set_minlp_solver_options g d pos)) k = option_of d k.
Proof.
  intros H. cbn [set_minlp_solver_options fst]. rewrite set_get.
  destruct (String.eqb_spec "bonmin.random_generator_seed" k) as [<-|N].
  - exfalso. apply H. cbn. tauto.
  - rewrite set_list_get, untouched; [reflexivity|]. intros I. apply H. cbn in *. tauto.
Qed.

(** Whichever function runs Bonmin, and whatever options its installation has: every run is limited to
    45 seconds in all, 20 seconds and 1000 iterations for every nonlinear problem, may not relax the
    bounds, gets a seed in range; the remaining options of the installation stay. *)
Definition limited_minlp (s : solver solver_answer) (d : options) : Prop :=
  option_of d "bonmin.time_limit" = Some (OInt 45) /\ option_of d "max_cpu_time" = Some (OInt 20) /\
  option_of d "max_iter" = Some (OInt 1000) /\ option_of d "bound_relax_factor" = Some (OReal 0) /\
  option_of d "acceptable_tol" = Some (OReal (1 / 1000)) /\
  (exists z, option_of d "bonmin.random_generator_seed" = Some (OInt z) /\ (0 <= z < 2 ^ 31 - 2)%Z) /\
  (forall k, ~ In k minlp_fixed -> option_of d k = option_of (factory_options s) k).
Lemma set_minlp_limited g s pos : proper_randoms g -> limited_minlp s (fst (set_minlp_solver_options g (factory_options s) pos)).
Proof.
  intros (_ & G). unfold limited_minlp.
  assert (E : forall k, option_of (fst (set_minlp_solver_options g (factory_options s) pos)) k =
    if String.eqb "bonmin.random_generator_seed" k then Some (OInt (rint g pos minlp_solver_max_seed)) else
    fold_left (fun o kv => if String.eqb (fst kv) k then Some (snd kv) else o) minlp_solver_options (option_of (factory_options s) k)).
  { intros k. cbn [set_minlp_solver_options fst]. rewrite set_get, set_list_get. reflexivity. }
  do 5 (split; [rewrite E; reflexivity|]). split.
  - exists (rint g pos minlp_solver_max_seed). split; [rewrite E; reflexivity|]. apply (G pos minlp_solver_max_seed). reflexivity.
  - intros k. apply minlp_get.
Qed.
Theorem C156_limits g s a m ints lo up best pos d x0 : proper_randoms g ->
  started (global_search a m g s ints lo up pos) = Some (d, x0) \/
  started (minimize_rbf g s ints lo up best pos) = Some (d, x0) -> limited_minlp s d.
Proof.
  assert (R : forall x pos, started (run_minlp g s ints x pos) = Some (d, x0) ->
    exists q, d = fst (set_minlp_solver_options g (factory_options s) q)).
  { intros x q. unfold run_minlp. destruct (available s); [|discriminate]. cbn. intros H. injection H as <- _. exists q. reflexivity. }
  intros G [H|H].
  - unfold global_search in H. destruct m as [p k|p k| |], a; try discriminate H; cbn [initialize_instance_variables] in H;
      apply R in H as (q & ->); apply set_minlp_limited, G.
  - unfold minimize_rbf in H. destruct best; cbn [initialize_instance_variables] in H; apply R in H as (q & ->); apply set_minlp_limited, G.
Qed.
Print Assumptions C156_limits.
Theorem C156_limits_noisy s init pos d x0 : started (noisy_coefficients s init pos) = Some (d, x0) ->
  option_of d "max_cpu_time" = Some (OInt 20) /\ option_of d "max_iter" = Some (OInt 1000) /\
  option_of d "bound_relax_factor" = Some (OReal 0) /\ option_of d "honor_original_bounds" = Some (OText "yes") /\
  option_of d "acceptable_tol" = Some (OReal (1 / 1000)) /\
  forall k, ~ In k nlp_fixed -> option_of d k = option_of (factory_options s) k.
Proof.
  unfold noisy_coefficients. destruct (available s); [|discriminate]. cbn [set_nlp_solver_options started]. intros H.
  assert (E : d = set_list (factory_options s) nlp_solver_options) by congruence. subst d.
  do 5 (split; [rewrite set_list_get; reflexivity|]). intros k N. rewrite set_list_get. apply untouched. exact N.
Qed.
Print Assumptions C156_limits_noisy.

(** A missing solver is an error, not a failed search; and a solver that is there is the only thing
    needed: whatever it does (another status, an exception) the call returns. *)
Theorem C156_missing g s sn a m ints lo up best init pos :
  (result (minimize_rbf g s ints lo up best pos) = ERuntimeError <-> available s = false) /\
  (result (noisy_coefficients sn init pos) = ERuntimeError <-> available sn = false) /\
  (result (global_search a m g s ints lo up pos) = ERuntimeError <-> m = Solver /\ a <> AlgOther /\ available s = false).
Proof.
  split; [|split].
  - unfold minimize_rbf. destruct best; cbn [initialize_instance_variables]; unfold run_minlp; destruct (available s); cbn; split; congruence.
  - unfold noisy_coefficients. destruct (available sn); cbn; split; congruence.
  - unfold global_search. destruct m as [p k|p k| |], a; cbn [initialize_instance_variables result]; unfold run_minlp;
      try (split; [discriminate|intros (X & Y & Z); congruence]); destruct (available s); cbn; split; try discriminate; auto;
      try (intros (X & Y & Z); congruence); intros _; repeat split; congruence.
Qed.
Print Assumptions C156_missing.

(** The genetic and the sampling search need no solver; but [minimize_rbf] does, whichever method is set:
    it has no other way. *)
Theorem C156_method g s s' a p k ints lo up pos m : m = Genetic p k \/ m = Sampling p k ->
  started (global_search a m g s ints lo up pos) = None /\ global_search a m g s ints lo up pos = global_search a m g s' ints lo up pos.
Proof. intros [-> | ->]; unfold global_search; destruct a; split; reflexivity. Qed.
Print Assumptions C156_method.
Theorem C156_method_local g s ints lo up best pos : available s = true ->
  started (minimize_rbf g s ints lo up best pos) <> None.
Proof. intros H. unfold minimize_rbf. destruct best; cbn [initialize_instance_variables]; unfold run_minlp; rewrite H; cbn; discriminate. Qed.
Print Assumptions C156_method_local.

(** A point comes back exactly when the solver reports an optimal solution: it is that one with its
    integer variables rounded. *)
Theorem C156_point g s a m ints lo up best pos p :
  (result (minimize_rbf g s ints lo up best pos) = EValue (Some p) \/
   (m = Solver /\ result (global_search a m g s ints lo up pos) = EValue (Some p))) ->
  exists d x0 x, available s = true /\ answers s d x0 = SolverOptimal x /\ p = rround_integer_vars x ints.
Proof.
  assert (R : forall x q, result (run_minlp g s ints x q) = EValue (Some p) ->
    exists d x0 y, available s = true /\ answers s d x0 = SolverOptimal y /\ p = rround_integer_vars y ints).
  { intros x q. unfold run_minlp. destruct (available s); [|discriminate]. cbn [result set_minlp_solver_options]. intros H.
    match type of H with context [answers s ?d ?y] => exists d, y; destruct (answers s d y) as [| |z]; cbn in H; try discriminate H end.
    exists z. split; [reflexivity|]. split; [reflexivity|]. congruence. }
  intros [H|(-> & H)].
  - unfold minimize_rbf in H. destruct best; cbn [initialize_instance_variables] in H; apply R in H; exact H.
  - unfold global_search in H. destruct a; try discriminate H; cbn [initialize_instance_variables] in H; apply R in H; exact H.
Qed.
Print Assumptions C156_point.

(** Starting values: the given point, or a random point of the box. *)
Theorem C156_start g s a m ints lo up best pos d x0 : proper_randoms g -> length up = length lo ->
  (forall j, (j < length lo)%nat -> nth j lo 0 <= nth j up 0) ->
  (started (global_search a m g s ints lo up pos) = Some (d, x0) -> length x0 = length lo /\ inside lo up x0) /\
  (started (minimize_rbf g s ints lo up best pos) = Some (d, x0) ->
     match best with Some p => x0 = p | None => length x0 = length lo /\ inside lo up x0 end).
Proof.
  intros (G & _) L B.
  assert (V : forall l u q, length u = length l -> (forall j, (j < length l)%nat -> nth j l 0 <= nth j u 0) ->
    let y := start_values l u None (map (uni g) (seq q (length l))) in length y = length l /\ inside l u y).
  { cbn [start_values]. induction l as [|b l IH]; intros [|w u] q E H; cbn in E; try discriminate.
    - split; [reflexivity|]. intros j Hj. cbn in Hj. lia.
    - cbn [length seq map map3]. destruct (IH u (S q)) as (I1 & I2); [lia|intros j Hj; apply (H (S j)); cbn; lia|].
      split; [cbn; f_equal; exact I1|]. intros [|j] Hj; cbn [nth].
      + pose proof (G q). specialize (H 0%nat ltac:(cbn; lia)). cbn in H. nra.
      + apply I2. cbn in Hj. unfold rpoint in *. lia. }
  assert (R : forall x q, started (run_minlp g s ints x q) = Some (d, x0) -> x0 = x).
  { intros x q. unfold run_minlp. destruct (available s); [|discriminate]. cbn. congruence. }
  split; intros H.
  - unfold global_search in H. destruct m as [p k|p k| |], a; try discriminate H; cbn [initialize_instance_variables] in H;
      apply R in H as ->; apply V; auto.
  - unfold minimize_rbf in H. destruct best; cbn [initialize_instance_variables] in H; apply R in H as ->; auto.
Qed.
Print Assumptions C156_start.

(** The noisy coefficients: with initial values (and Ipopt installed) there is always a result, the solver's
    or, whatever went wrong, the initial ones. *)
Theorem C156_coefficients s init pos d x0 : started (noisy_coefficients s init pos) = Some (d, x0) ->
  (answers s d x0 = None -> result (noisy_coefficients s init pos) = EValue init) /\
  (forall c, answers s d x0 = Some c -> result (noisy_coefficients s init pos) = EValue (Some c)) /\
  (forall lam h, init = Some (lam, h) -> x0 = lam ++ h).
Proof.
  unfold noisy_coefficients. destruct (available s); [|discriminate]. cbn [set_nlp_solver_options started result]; cbv zeta.
  intros H. assert (E : d = set_list (factory_options s) nlp_solver_options) by congruence.
  assert (E' : x0 = initial_values init) by congruence. rewrite E, E'. split; [intros ->; reflexivity|]. split; [intros c ->; reflexivity|]. intros lam h ->. reflexivity.
Qed.
Print Assumptions C156_coefficients.

(** Random numbers: a search by the solver uses one for each variable and one for the seed, the
    minimization of the model from a given point one, the noisy coefficients none, a genetic or sampling search those it
    draws itself - whatever the solver answers, so that what the solver does never shifts the random numbers of the rest of the run. *)
Theorem C156_draws g s sn a ints lo up p init pos : available s = true -> available sn = true -> a <> AlgOther ->
  position (global_search a Solver g s ints lo up pos) = (pos + (length lo + 1))%nat /\
  position (minimize_rbf g s ints lo up (Some p) pos) = (pos + 1)%nat /\
  position (noisy_coefficients sn init pos) = pos /\
  (forall m q k, m = Genetic q k \/ m = Sampling q k -> position (global_search a m g s ints lo up pos) = (pos + k)%nat).
Proof.
  intros H H' A. split; [|split; [|split]].
  4:{ intros m q k [-> | ->]; destruct a; try congruence; reflexivity. }
  - unfold global_search. destruct a; [| |congruence]; cbn [initialize_instance_variables]; unfold run_minlp; rewrite H; cbn; lia.
  - unfold minimize_rbf. cbn [initialize_instance_variables]. unfold run_minlp. rewrite H. cbn. lia.
  - unfold noisy_coefficients. rewrite H'. reflexivity.
Qed.
Print Assumptions C156_draws.

(** ** A case: an installation with its own options and a solver that fails with every seed above 10. *)
Definition half : randoms := mkRandoms (fun _ => 1/2) (fun i m => Z.of_nat i mod m)%Z.
Lemma half_proper : proper_randoms half.
Proof. split; [intros i; cbn; lra|]. intros i m H. cbn. apply Z.mod_pos_bound. exact H. Qed.
Definition site : solver solver_answer :=
  mkSolver true [("max_iter", OInt 7); ("linear_solver", OText "ma27")]%string
    (fun d x => match option_of d "bonmin.random_generator_seed" with
                | Some (OInt z) => if (z <? 10)%Z then SolverOptimal x else SolverRaised
                | _ => SolverOther end).
Example C156_case :
  let c := global_search AlgMSRSM Solver half site [] [0; 0] [2; 4] 3 in
  exists d x0, started c = Some (d, x0) /\ option_of d "max_iter" = Some (OInt 1000) /\
    option_of d "linear_solver" = Some (OText "ma27") /\ option_of d "bonmin.random_generator_seed" = Some (OInt 5) /\
    result c = EValue (Some x0) /\ position c = 6%nat /\ nth 1 x0 0 = 2 /\
  result (global_search AlgMSRSM Solver half site [] [0; 0] [2; 4] 20) = EValue None.
Proof.
  cbv zeta. do 2 eexists. split; [reflexivity|]. split; [reflexivity|]. split; [reflexivity|]. split; [reflexivity|].
  split; [reflexivity|]. split; [reflexivity|]. split; [cbn; lra|]. reflexivity.
Qed.
