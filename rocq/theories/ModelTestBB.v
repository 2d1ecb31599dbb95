(** * The black boxes used for testing and benchmarking.

    Models rbfopt_test_functions.py 2675-2730 (TestNoisyBlackBox) and 2732-2897
    (TestEnlargedBlackBox).  The individual test functions are an arbitrary function on
    points; numbers are exact rationals.  Random draws are arguments.  Definitions only. *)
From Verif Require Export ModelBase.
Open Scope Q_scope.

(** ** TestNoisyBlackBox, lines 2712-2721.  [rel] and [ab] are the two uniform draws. *)
Definition evaluate_noisy (f : point -> Q) (rel ab : Q) (p : point) : Q * Q * Q :=
  let value := f p in
  (value + rel * Qabs value + ab,
   - Qabs (rel * Qabs value + ab),
   Qabs (rel * Qabs value + ab)).
(** [evaluate], line 2709. *)
Definition evaluate_accurate (f : point -> Q) (p : point) : Q := f p.

(** ** TestEnlargedBlackBox *)
(** Variable types 'R', 'I', 'C'. *)
Inductive vtype := VR | VI | VC.
(** A test function of the module: class attributes and its static [evaluate]. *)
Record fn := mkFn {
  f_dim : nat; f_lo : point; f_up : point; f_type : list vtype;
  f_opt : point; f_optval : Q; f_eval : point -> Q }.

Definition nthQ (l : point) (j : nat) : Q := nth j l 0.
Definition sumQ (l : list Q) : Q := fold_right Qplus 0 l.
Definition nthT (l : list vtype) (j : nat) : vtype := nth j l VR.

(** Data stored by the constructor.  [coupling] is the reshaped second permutation,
    one row per original variable. *)
Record enlarged := mkEnl {
  e_fn : fn; e_mult : nat; perm : list nat; coupling : list (list nat);
  extra : list (Q * Q); factor : list Q; shift : list Q; weight : list Q }.

(** [sum(attr[perm[val] % dim] for val in coupling[i])]. *)
Definition coupled_sum (dim : nat) (pm : list nat) (attr : point) (row : list nat) : Q :=
  sumQ (map (fun v => nthQ attr (nth v pm 0%nat mod dim)) row).

(** One pass of the loop 2784-2824: bounds, multiplication factor and shift of variable [i].
    Division by zero (equal bounds) gives nan in the code and 0 here; the theorems assume
    different bounds. *)
Definition couple_one (f : fn) (pm : list nat) (row : list nat) (i : nat) : (Q * Q) * Q * Q :=
  let lb := coupled_sum (f_dim f) pm (f_lo f) row in
  let ub := coupled_sum (f_dim f) pm (f_up f) row in
  let opt := coupled_sum (f_dim f) pm (f_opt f) row in
  let ratio := (opt - lb) / (ub - lb) in
  let orig := (nthQ (f_opt f) i - nthQ (f_lo f) i) / (nthQ (f_up f) i - nthQ (f_lo f) i) in
  if negb (Qeq_bool ratio 0) && negb (Qeq_bool orig 0) then ((lb, ub), orig / ratio, 0)
  else if Qeq_bool orig 0 then ((opt, Qmax ub (opt + 1)), 1, 0)
  else ((lb, ub), 1, nthQ (f_opt f) i - nthQ (f_lo f) i).

(** Weights, lines 2826-2828. *)
Definition weights (ws : list Z) : list Q :=
  let total := inject_Z (fold_right Z.add 0%Z ws) in
  map (fun w => (6#10) * inject_Z w / total) ws ++ [4#10].

(** The constructor 2762-2853; [pm], [rows], [ws] are the random draws. *)
Definition enlarge (f : fn) (d : nat) (pm : list nat) (rows : list (list nat)) (ws : list Z) : enlarged :=
  let l := map2 (couple_one f pm) rows (seq 0 (f_dim f)) in
  mkEnl f d pm rows (map (fun x => fst (fst x)) l) (map (fun x => snd (fst x)) l) (map snd l) (weights ws).

(** Bounds, types and optimum of the enlarged function, 2838-2853. *)
Definition spread {A} (e : enlarged) (attr : list A) (a0 : A) : list A :=
  map (fun i => nth (nth i (perm e) 0%nat mod f_dim (e_fn e)) attr a0)
      (seq 0 (f_dim (e_fn e) * e_mult e)).
Definition e_lo (e : enlarged) : point := spread e (f_lo (e_fn e)) 0.
Definition e_up (e : enlarged) : point := spread e (f_up (e_fn e)) 0.
Definition e_type (e : enlarged) : list vtype := spread e (f_type (e_fn e)) VR.
Definition e_opt (e : enlarged) : point := spread e (f_opt (e_fn e)) 0.
Definition e_optval (e : enlarged) : Q := f_optval (e_fn e).
Definition e_dim (e : enlarged) : nat := (f_dim (e_fn e) * e_mult e)%nat.

(** [np.where(l == j)[0][0]]: first position. *)
Fixpoint position (j : nat) (l : list nat) : nat :=
  match l with
  | [] => 0%nat
  | x :: r => if (x =? j)%nat then 0%nat else S (position j r)
  end.
(** Point handed to copy [i], 2872-2874. *)
Definition copy (e : enlarged) (x : point) (i : nat) : point :=
  map (fun j => nthQ x (position (i * f_dim (e_fn e) + j) (perm e))) (seq 0 (f_dim (e_fn e))).

(** [np.argmax(np.bincount(...astype(int)))]: the most frequent value, the smallest
    of several; [bincount] raises for negative values (None). *)
Definition truncate (q : Q) : Z := if Qle_bool 0 q then Qfloor q else Qceiling q.
Definition bincount (zs : list Z) : list Q :=
  map (fun k => inject_Z (Z.of_nat (length (filter (Z.eqb (Z.of_nat k)) zs))))
      (seq 0 (S (Z.to_nat (fold_right Z.max 0%Z zs)))).
Definition most_frequent (zs : list Z) : option Z :=
  if existsb (fun z => z <? 0)%Z zs then None else Some (Z.of_nat (argmax (bincount zs))).

(** Value of component [i] of the coupling point, 2877-2893.  (The two loops over the
    components are done at once.) *)
Definition coupled_raw (e : enlarged) (x : point) (i : nat) : Q :=
  let f := e_fn e in
  let s := sumQ (map (nthQ x) (nth i (coupling e) [])) in
  let b := nth i (extra e) (0, 0) in
  nthQ (f_lo f) i + nthQ (shift e) i +
  nthQ (factor e) i * (s - fst b) / (snd b - fst b) * (nthQ (f_up f) i - nthQ (f_lo f) i).
Definition coupled_one (e : enlarged) (x : point) (i : nat) : option Q :=
  let f := e_fn e in
  let y := clip1 (coupled_raw e x i) (nthQ (f_lo f) i) (nthQ (f_up f) i) in
  match nthT (f_type f) i with
  | VR => Some y
  | VI => Some (inject_Z (round_half_even y))
  | VC =>
      let locations := filter (fun k => (nth k (perm e) 0%nat mod f_dim f =? i)%nat)
                              (seq 0 (length (perm e))) in
      option_map inject_Z (most_frequent (map (fun k => truncate (nthQ x k)) locations))
  end.
Fixpoint all_some {A} (l : list (option A)) : option (list A) :=
  match l with
  | [] => Some []
  | Some a :: r => option_map (cons a) (all_some r)
  | None :: _ => None
  end.
Definition coupled (e : enlarged) (x : point) : option point :=
  all_some (map (coupled_one e x) (seq 0 (f_dim (e_fn e)))).

(** [evaluate], 2867-2895; [None]: an exception. *)
Definition evaluate_enlarged (e : enlarged) (x : point) : option Q :=
  if (length x =? e_dim e)%nat then
    let copies := sumQ (map (fun i => nthQ (weight e) i * f_eval (e_fn e) (copy e x i)) (seq 0 (e_mult e))) in
    option_map (fun s => copies + nthQ (weight e) (length (weight e) - 1) * f_eval (e_fn e) s) (coupled e x)
  else None.
