(** * Specification vocabulary for the genetic search (C63, C98). *)
From Verif Require Export ModelGA SpecInit.
Open Scope Q_scope.

(** Rows of uniform random numbers in [0,1). *)
Definition uniform_rows (m n : nat) (rows : list point) : Prop :=
  length rows = m /\ forall r, In r rows -> length r = n /\ forall x, In x r -> 0 <= x < 1.
(** Distinct coordinates, fewer than [max], with numbers in [0,1). *)
Definition mutation_ok (n max : nat) (mu : mutation) : Prop :=
  NoDup (map fst mu) /\ (length mu < max)%nat /\
  forall j r, In (j, r) mu -> (j < n)%nat /\ 0 <= r < 1.
(** [rank] sorts the scores. *)
Definition sorts (scores : list score) (rank : list nat) : Prop :=
  permutation_of (length scores) rank /\
  forall i j, (i <= j < length rank)%nat ->
    xle (nth (nth i rank 0%nat) scores None) (nth (nth j rank 0%nat) scores None) = true.
(** What one generation may draw, given the scores of the population. [ns], [nn]: numbers of
    survivors and of new individuals, [n]: dimension, [max]: maximum size of a mutation. *)
Definition draws_ok (ns nn n max : nat) (scores : list score) (d : gen_draw) : Prop :=
  sorts scores (g_rank d) /\
  permutation_of ns (g_father d) /\ permutation_of ns (g_mother d) /\
  length (g_coins d) = ns /\ (forall c, In c (g_coins d) -> length c = n) /\
  uniform_rows nn n (g_new d) /\ mutation_ok n max (g_best d) /\
  length (g_mutations d) = (ns - 1)%nat /\
  (forall mu, In (Some mu) (g_mutations d) -> mutation_ok n max mu).
(** The draws of a whole run with scoring [objfun]; [N]: number of generations requested. *)
Fixpoint run_ok (sp : space) (base n N gen : nat) (objfun : list point -> list score)
    (population : list point) (gens : list gen_draw) : Prop :=
  match gens with
  | [] => True
  | d :: r =>
      draws_ok (num_surviving base n) (num_new base n) (sp_dim sp)
        (max_size_pert (sp_dim sp) (mutation_rate N gen)) (objfun population) d /\
      run_ok sp base n N (S gen) objfun (generation sp base n population d) r
  end.
(** A scoring that depends only on the individual. *)
Definition fixed_scoring (f : point -> score) (objfun : list point -> list score) : Prop :=
  (forall l, objfun l = map f l) /\
  forall p q, same_point p q -> xle (f p) (f q) = true.
(** A search box inside the problem's box: integral where required, and leaving every
    categorical choice open. *)
Definition search_box (eps : Q) (b : bbox) (lo up : point) : Prop :=
  let s := construct_problem eps b in
  length lo = s_dim s /\ length up = s_dim s /\
  (forall j, (j < s_dim s)%nat ->
     nth j (box_lower s) 0 <= nth j lo 0 /\ nth j lo 0 <= nth j up 0 /\ nth j up 0 <= nth j (box_upper s) 0) /\
  (forall j, In j (s_ints s) -> integral (nth j lo 0) /\ integral (nth j up 0)) /\
  (forall j, (length (plain_vars eps b) <= j < s_dim s)%nat -> nth j lo 0 == 0 /\ nth j up 0 == 1).
