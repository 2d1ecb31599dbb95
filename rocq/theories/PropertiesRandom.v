(** * C151: random streams of the optimizer and of its workers. *)
From Verif Require Import ModelRandom RandomProofs.

(** ** C151
    The workers of a parallel call use independent random numbers: false.  Whatever tasks the
    workers get, the numbers used by one of any two workers are, in order, the first
    numbers used by the other one. *)
Theorem C151_workers_share_stream : forall (B : Type) sq rand_seed num_cpus (ts : list (nat * prog B)) out i j,
  works sq ts (open_pool rand_seed num_cpus) = Some out -> i < num_cpus -> j < num_cpus ->
  exists rest, used i out = used j out ++ rest \/ used j out = used i out ++ rest.
Proof.
  intros B sq s n ts out i j H Hi Hj.
  pose proof (works_used sq ts _ _ _ _ H (open_nth s n i Hi)) as A.
  pose proof (works_used sq ts _ _ _ _ H (open_nth s n j Hj)) as D.
  cbn [g_seed g_at seed] in A, D. set (a := used i out) in *. set (d := used j out) in *.
  destruct (Nat.le_ge_cases (length a) (length d)) as [L|L].
  - exists (map (sq s) (seq (length a) (length d - length a))). right. rewrite D at 1. rewrite A at 1.
    rewrite <- map_app. replace (length d) with (length a + (length d - length a)) at 1 by lia. rewrite seq_app. reflexivity.
  - exists (map (sq s) (seq (length d) (length a - length d))). left. rewrite A at 1. rewrite D at 1.
    rewrite <- map_app. replace (length a) with (length d + (length a - length d)) at 1 by lia. rewrite seq_app. reflexivity.
Qed.
Print Assumptions C151_workers_share_stream.
(** In particular the same work given to two workers gives the same results ... *)
Theorem C151_same_work_same_results : forall (B : Type) sq rand_seed num_cpus (ts : list (nat * prog B)) out i j,
  works sq ts (open_pool rand_seed num_cpus) = Some out -> i < num_cpus -> j < num_cpus ->
  tasks_of i ts = tasks_of j ts -> results_of i out = results_of j out.
Proof.
  intros B sq s n ts out i j H Hi Hj E.
  rewrite (works_alone sq ts _ _ _ _ H (open_nth s n i Hi)), (works_alone sq ts _ _ _ _ H (open_nth s n j Hj)), E. reflexivity.
Qed.
Print Assumptions C151_same_work_same_results.
(** ... and every call of [optimize] starts the workers' numbers anew: the results of a worker
    depend only on the seed and on the tasks it got in this call, in this order; not on
    earlier calls, on the other workers, on their number or on the main process. *)
Theorem C151_calls_repeat : forall (B : Type) sq rand_seed n1 n2 (ts1 ts2 : list (nat * prog B)) out1 out2 i j,
  works sq ts1 (open_pool rand_seed n1) = Some out1 -> works sq ts2 (open_pool rand_seed n2) = Some out2 ->
  i < n1 -> j < n2 -> tasks_of i ts1 = tasks_of j ts2 -> results_of i out1 = results_of j out2.
Proof.
  intros B sq s n1 n2 ts1 ts2 o1 o2 i j H1 H2 Hi Hj E.
  rewrite (works_alone sq ts1 _ _ _ _ H1 (open_nth s n1 i Hi)), (works_alone sq ts2 _ _ _ _ H2 (open_nth s n2 j Hj)), E. reflexivity.
Qed.
Print Assumptions C151_calls_repeat.
(** What the program draws after creating an optimizer does not depend on the past: a serial run is
    reproducible from its seed alone ... *)
Theorem C151_reproducible : forall sq rand_seed before after g g0,
  acts sq (before ++ Create rand_seed :: after) g =
  (fst (acts sq before g) ++ fst (acts sq (Create rand_seed :: after) g0), snd (acts sq (Create rand_seed :: after) g0)).
Proof.
  intros sq s before after. induction before as [|a r IH]; intros g g0; cbn [app].
  - cbn [acts act fst app]. destruct (acts sq after (seed s)); reflexivity.
  - cbn [acts]. destruct (act sq a g) as [xs g1]. specialize (IH g1 g0). rewrite IH.
    destruct (acts sq r g1) as [ys g2]. cbn [fst snd]. rewrite app_assoc. reflexivity.
Qed.
Print Assumptions C151_reproducible.
(** (Numbers taken in two blocks are those taken in one, and a computation that asks for them one by one gets the same.) *)
Theorem C151_blocks : forall sq j k g, let '(xs, g1) := take sq j g in let '(ys, g2) := take sq k g1 in take sq (j + k) g = (xs ++ ys, g2).
Proof.
  intros sq j k g. unfold take. cbn [g_seed g_at]. rewrite seq_app, map_app. f_equal. f_equal. lia.
Qed.
Print Assumptions C151_blocks.
Fixpoint asks {B} (k : nat) (acc : list Z) (b : list Z -> B) : prog B := match k with O => Ret (b acc) | S k' => Draw (fun x => asks k' (acc ++ [x]) b) end.
Theorem C151_one_by_one : forall (B : Type) sq (b : list Z -> B) k acc g,
  exec sq (asks k acc b) g = (b (acc ++ fst (take sq k g)), fst (take sq k g), snd (take sq k g)).
Proof.
  intros B sq b k. induction k as [|k IH]; intros acc g.
  - cbn [asks exec take seq map fst snd]. rewrite app_nil_r. destruct g as [s a]. cbn. rewrite Nat.add_0_r. reflexivity.
  - cbn [asks exec]. rewrite IH. unfold take. cbn [g_seed g_at fst snd seq map]. rewrite <- app_assoc. cbn [app]. rewrite <- plus_n_Sm. reflexivity.
Qed.
Print Assumptions C151_one_by_one.
(** ... but the generator is shared: creating a second optimizer changes the numbers the first one (or the user's
    program) draws next; with equal seeds it gets the same numbers again. *)
Theorem C151_creation_restarts : forall sq s p k g xs g1, exec sq p (seed s) = (tt, xs, g1) -> length xs = k ->
  acts sq [Create s; Compute p; Create s; Compute p] g = (xs ++ xs, mkGen s k).
Proof.
  intros sq s p k g xs g1 H Hk. cbn [acts act]. rewrite H. cbn [app].
  apply exec_prefix in H. destruct H as (_ & ->). cbn [g_seed g_at seed]. rewrite app_nil_r, Hk. reflexivity.
Qed.
Print Assumptions C151_creation_restarts.
Theorem C151_independence_refuted : exists sq s p q g,
  fst (acts sq [Create s; Compute p; Compute q] g) <> fst (acts sq [Create s; Compute p; Create s; Compute q] g).
Proof.
  exists (fun _ k => Z.of_nat k), 7%Z, (Draw (fun _ => Draw (fun _ => Ret tt))), (Draw (fun _ => Ret tt)), (seed 0).
  cbn. discriminate.
Qed.
Print Assumptions C151_independence_refuted.

(** Two workers; worker 0 draws until it gets an even number, worker 1 draws twice. *)
Definition two_draws : prog Z := Draw (fun a => Draw (fun b => Ret (a + b)%Z)).
Definition one_draw : prog Z := Draw (fun a => Ret a).
Definition until_even : prog Z :=
  Draw (fun a => if Z.even a then Ret a else Draw (fun b => if Z.even b then Ret b else Draw (fun c => Ret c))).
Definition sq0 : sequences := fun s k => (s + 3 * Z.of_nat k)%Z.
Example C151_case : works sq0 [(0, until_even); (1, two_draws); (0, one_draw); (1, two_draws)] (open_pool 5 2) =
  Some [(0, 8%Z, [5%Z; 8%Z]); (1, 13%Z, [5%Z; 8%Z]); (0, 11%Z, [11%Z]); (1, 25%Z, [11%Z; 14%Z])].
Proof. reflexivity. Qed.
Example C151_same_case : let ts := [(0, two_draws); (1, two_draws); (1, one_draw); (0, one_draw)] in
  tasks_of 0 ts = tasks_of 1 ts /\ works sq0 ts (open_pool 5 2) =
  Some [(0, 13%Z, [5%Z; 8%Z]); (1, 13%Z, [5%Z; 8%Z]); (1, 11%Z, [11%Z]); (0, 11%Z, [11%Z])].
Proof. split; reflexivity. Qed.
Example C151_creation_case : exec sq0 (Draw (fun _ => Ret tt)) (seed 5) = (tt, [5%Z], mkGen 5 1).
Proof. reflexivity. Qed.
