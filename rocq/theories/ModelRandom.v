(** * Random number generators: main process and workers.

    Models rbfopt_utils.py [init_environment] 2255-2270, its two uses (constructor of the
    optimizer, rbfopt_algorithm.py 348-351; initializer of the worker pool, 1222-1223), and
    the restoration of the generator by [load_from_file], 746.

    Definitions only.

    numpy's global generator is a pseudorandom sequence that is determined by the seed,
    and a position in it; a computation that uses it takes some numbers from the current
    position on.  Simplifications: the numbers are raw generator outputs (what they are
    transformed into does not matter here); logger levels (2267-2270) are not represented;
    the pool starts by fork and never replaces a worker (multiprocessing's defaults). *)
From Coq Require Export List ZArith Lia.
Export ListNotations.

(** The sequence of a seed, [np.random.seed]: any function of the seed. *)
Definition sequences := Z -> nat -> Z.
Record generator := mkGen { g_seed : Z; g_at : nat }.
Definition seed (s : Z) : generator := mkGen s 0.

(** Takes [k] numbers. *)
Definition take (sq : sequences) (k : nat) (g : generator) : list Z * generator :=
  (map (sq (g_seed g)) (seq (g_at g) k), mkGen (g_seed g) (g_at g + k)).

(** A computation (a search task or an evaluation): how many numbers it uses may depend on
    its argument and on the numbers themselves: it asks for one number after the other
    until it has a result. *)
Inductive prog (B : Type) :=
| Ret (b : B)
| Draw (next : Z -> prog B).
Arguments Ret {B} b.
Arguments Draw {B} next.
(** Its execution: result, numbers used, generator afterwards. *)
Fixpoint exec {B} (sq : sequences) (p : prog B) (g : generator) : B * list Z * generator :=
  match p with
  | Ret b => (b, [], g)
  | Draw next =>
      let x := sq (g_seed g) (g_at g) in
      let '(b, xs, g') := exec sq (next x) (mkGen (g_seed g) (S (g_at g))) in
      (b, x :: xs, g')
  end.

(** ** The worker pool, 1222-1223: [num_cpus] processes, each of which runs
    [init_environment(l_settings)] first. *)
Definition open_pool (rand_seed : Z) (num_cpus : nat) : list generator :=
  repeat (seed rand_seed) num_cpus.
Fixpoint set_nth {A} (i : nat) (a : A) (l : list A) : list A :=
  match l, i with
  | [], _ => []
  | _ :: r, O => a :: r
  | x :: r, S j => x :: set_nth j a r
  end.
(** One task executed by worker [i] ([pool.apply_async], the pool decides on [i]). *)
Definition work {B} (sq : sequences) (i : nat) (p : prog B) (ws : list generator)
  : option (B * list Z * list generator) :=
  match nth_error ws i with
  | None => None
  | Some g => let '(b, xs, g') := exec sq p g in Some (b, xs, set_nth i g' ws)
  end.
(** A sequence of tasks with the workers that take them: results and numbers used, in order. *)
Fixpoint works {B} (sq : sequences) (ts : list (nat * prog B)) (ws : list generator)
  : option (list (nat * B * list Z)) :=
  match ts with
  | [] => Some []
  | (i, p) :: r =>
      match work sq i p ws with
      | None => None
      | Some (b, xs, ws') => option_map (cons (i, b, xs)) (works sq r ws')
      end
  end.

(** ** The main process.  What the user's program does with one generator: create an
    optimizer (its constructor calls [init_environment]), let an optimizer or any other
    code draw numbers, load a saved optimizer. *)
Inductive action :=
| Create (rand_seed : Z)                 (* RbfoptAlgorithm(settings, ...) 348-351 *)
| Compute (p : prog unit)                (* anything that draws numbers *)
| LoadState (g : generator).             (* load_from_file 746 *)
Definition act (sq : sequences) (a : action) (g : generator) : list Z * generator :=
  match a with
  | Create s => ([], seed s)
  | Compute p => let '(_, xs, g') := exec sq p g in (xs, g')
  | LoadState g1 => ([], g1)
  end.
Fixpoint acts (sq : sequences) (l : list action) (g : generator) : list Z * generator :=
  match l with
  | [] => ([], g)
  | a :: r => let (xs, g1) := act sq a g in
              let (ys, g2) := acts sq r g1 in (xs ++ ys, g2)
  end.
