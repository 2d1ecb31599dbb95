(** * Problem set-up: fixed variables, categorical encoding, decoding.

    Models rbfopt_algorithm.py 244-331 (constructor), 790-812 (returned point), 2905-3004
    ([objfun], [objfun_noisy]: the point handed to the black box) and rbfopt_utils.py 679-860
    (expand / compress).  Definitions only.

    Simplifications: coordinates are rationals; comparison of coordinates is rational
    equality; numpy's dtype conversions are ignored. *)
From Verif Require Export ModelBase.
Open Scope Q_scope.

(** Variable types: 'R', 'I', 'C' (upper or lower case). *)
Inductive vtype := VReal | VInt | VCat.
Definition is_real (t : vtype) : bool := match t with VReal => true | _ => false end.
Definition is_int (t : vtype) : bool := match t with VInt => true | _ => false end.
Definition is_cat (t : vtype) : bool := match t with VCat => true | _ => false end.

(** The black box: [get_var_lower], [get_var_upper], [get_var_type]. *)
Record bbox := mkBB { bb_lower : point; bb_upper : point; bb_type : list vtype }.
Definition bb_dim (b : bbox) : nat := length (bb_lower b).

(** [np.where(mask)[0]]: positions at which [f] holds. *)
Fixpoint where_from {A} (f : A -> bool) (off : nat) (l : list A) : list nat :=
  match l with
  | [] => []
  | x :: r => if f x then off :: where_from f (S off) r else where_from f (S off) r
  end.
Definition where_ {A} (f : A -> bool) (l : list A) : list nat := where_from f 0 l.
(** [a[idx]] for an index array. *)
Definition take {A} (d : A) (idx : list nat) (l : list A) : list A := map (fun i => nth i l d) idx.
(** [a[idx] = vals]. *)
Fixpoint put {A} (idx : list nat) (vals l : list A) : list A :=
  match idx, vals with
  | i :: ir, v :: vr => put ir vr (set_at i v l)
  | _, _ => l
  end.
Definition memn (i : nat) (l : list nat) : bool := existsb (Nat.eqb i) l.

(** Python's [int()] of a float: truncation. *)
Definition trunc (q : Q) : Z := if Qle_bool 0 q then Qfloor q else Qceiling q.

(** Fixed variables 269-275: [np.isclose(lower, upper, 0, eps_zero)]. *)
Definition close_pair (eps : Q) (lu : Q * Q) : bool := Qle_bool (Qabs (fst lu - snd lu)) eps.
Definition fixed_idx (eps : Q) (b : bbox) : list nat :=
  where_ (close_pair eps) (combine (bb_lower b) (bb_upper b)).
Definition fixed_vars (eps : Q) (b : bbox) : list (nat * Q) :=
  map (fun i => (i, nth i (bb_lower b) 0)) (fixed_idx eps b).
(** 279-280: [np.setdiff1d(np.arange(dimension), fixed_vars)]. *)
Definition unfixed_idx (eps : Q) (b : bbox) : list nat :=
  filter (fun i => negb (memn i (fixed_idx eps b))) (seq 0 (bb_dim b)).

(** What the constructor stores. *)
Record setup := mkSetup {
  s_fixed : list (nat * Q);                       (* self.fixed_vars *)
  s_lower : point; s_upper : point;               (* before the in-place rounding at 393 *)
  s_ints : list nat;                              (* self.integer_vars *)
  s_cat : list nat; s_noncat : list nat;          (* categorical_info[0], [1] *)
  s_expansion : list (nat * Q * list nat)         (* categorical_info[2] *)
}.
Definition s_dim (s : setup) : nat := length (s_lower s).

(** 289-291: categorical variables with range 1 become integer variables. *)
Definition demote (t : vtype) (l u : Q) : vtype :=
  if is_cat t && Qeq_bool (u - l) 1 then VInt else t.
(** 300-304: blocks of consecutive indices. *)
Definition block_size (l u : Q) : nat := Z.to_nat (trunc (u - l + 1)).
Fixpoint blocks (current : nat) (cats : list nat) (lo up : point) : list (nat * Q * list nat) :=
  match cats with
  | [] => []
  | i :: r => let sz := block_size (nth i lo 0) (nth i up 0) in
              (i, nth i lo 0, seq current sz) :: blocks (current + sz) r lo up
  end.
Fixpoint blocks_end (current : nat) (cats : list nat) (lo up : point) : nat :=
  match cats with
  | [] => current
  | i :: r => blocks_end (current + block_size (nth i lo 0) (nth i up 0)) r lo up
  end.

Definition construct_problem (eps : Q) (b : bbox) : setup :=
  let fx := fixed_idx eps b in
  let uf := unfixed_idx eps b in
  let ints0 := where_ (fun t => negb (is_real t)) (bb_type b) in          (* 265-267 *)
  let lo := match fx with [] => bb_lower b | _ => take 0 uf (bb_lower b) end in
  let up := match fx with [] => bb_upper b | _ => take 0 uf (bb_upper b) end in
  let ty := match fx with [] => bb_type b | _ => take VReal uf (bb_type b) end in
  let ints1 := match fx with [] => ints0 | _ => where_ (fun i => memn i ints0) uf end in  (* 284-286 *)
  let ty' := map3 demote ty lo up in
  let cat := where_ is_cat ty' in
  let noncat := where_ (fun t => negb (is_cat t)) ty' in
  match cat with
  | [] => mkSetup (fixed_vars eps b) lo up ints1 [] noncat []
  | _ =>
      let m := length noncat in
      let total := blocks_end m cat lo up in
      mkSetup (fixed_vars eps b)
        (take 0 noncat lo ++ repeat 0 (total - m))
        (take 0 noncat up ++ repeat 1 (total - m))
        (filter (fun k => is_int (nth (nth k noncat 0%nat) ty' VReal)) (seq 0 m) ++ seq m (total - m))
        cat noncat (blocks m cat lo up)
  end.

(** ** Expand and compress, rbfopt_utils.py 679-860, one row *)
(** 717-722: one block: 1 where the value equals [lower + j]. *)
Definition expand_block (v lower : Q) (size : nat) : point :=
  map (fun j => if Qeq_bool v (lower + inject_Z (Z.of_nat j)) then 1 else 0) (seq 0 size).
Definition expand (s : setup) (p : point) : point :=
  take 0 (s_noncat s) p ++
  concat (map (fun e => let '(i, l, ex) := e in expand_block (nth i p 0) l (length ex)) (s_expansion s)).
(** 763-765: later matches overwrite earlier ones. *)
Fixpoint last_active (p : point) (ex : list nat) (j : nat) (acc : option nat) : option nat :=
  match ex with
  | [] => acc
  | e :: r => last_active p r (S j) (if Qeq_bool (nth e p 0) 1 then Some j else acc)
  end.
Fixpoint first_active (p : point) (ex : list nat) (j : nat) : option nat :=
  match ex with
  | [] => None
  | e :: r => if Qeq_bool (nth e p 0) 1 then Some j else first_active p r (S j)
  end.
(** Write one categorical value when its block has an active entry. *)
Definition write_cat (pick : point -> list nat -> option nat) (p : point)
  (acc : point) (e : nat * Q * list nat) : point :=
  let '(i, l, ex) := e in
  match pick p ex with
  | Some j => set_at i (l + inject_Z (Z.of_nat j)) acc
  | None => acc
  end.
Definition decode_with (pick : point -> list nat -> option nat) (s : setup) (p : point) : point :=
  let m := length (s_noncat s) in
  fold_left (write_cat pick p) (s_expansion s)
    (put (s_noncat s) (firstn m p) (repeat 0 (length (s_cat s) + m))).
(** [compress_categorical_vars] 725-766 (one row). *)
Definition compress (s : setup) (p : point) : point :=
  decode_with (fun p ex => last_active p ex 0 None) s p.
(** [objfun] / [objfun_noisy] 2938-2949: categorical part. *)
Definition decode_objfun (s : setup) (p : point) : point :=
  match s_expansion s with
  | [] => p
  | _ => decode_with (fun p ex => first_active p ex 0) s p
  end.
(** 2950-2955: [point.insert(i, val)] for the fixed variables in order. *)
Definition insert_fixed (fx : list (nat * Q)) (p : point) : point :=
  fold_left (fun q iv => insert_at (fst iv) (snd iv) q) fx p.
(** The point handed to [evaluate] / [evaluate_noisy]. *)
Definition bb_point (s : setup) (p : point) : point := insert_fixed (s_fixed s) (decode_objfun s p).
(** The point returned by [optimize] for the stored point [p], 803-812. *)
Definition returned_point (s : setup) (p : point) : point :=
  match s_expansion s with [] => p | _ => compress s p end.

(** [compress_categorical_bounds] 768-812. *)
Definition compress_bounds (s : setup) (bounds : point) : point :=
  let m := length (s_noncat s) in
  fold_left (fun acc (e : nat * Q * list nat) =>
      let '(i, l, ex) := e in
      set_at i (if Qeq_bool (nth (hd 0%nat ex) bounds 0) 0 then l
                else l + inject_Z (Z.of_nat (length ex)) - 1) acc)
    (s_expansion s)
    (put (s_noncat s) (firstn m bounds) (repeat 0 (length (s_cat s) + m))).
(** [compress_categorical_integer_vars] 814-860. *)
Fixpoint insert_before_larger (x : nat) (l : list nat) : list nat :=
  match l with
  | [] => [x]
  | y :: r => if (x <? y)%nat then x :: l else y :: insert_before_larger x r
  end.
Definition insert_index (l : list nat) (x : nat) : list nat :=
  let l' := map (fun k => if (x <=? k)%nat then S k else k) l in
  if (match l' with [] => true | _ => (last l' 0 <? x)%nat end) then l' ++ [x]
  else insert_before_larger x l'.
Definition compress_ints (s : setup) (ints : list nat) : list nat :=
  fold_left (fun l (e : nat * Q * list nat) => insert_index l (fst (fst e))) (s_expansion s)
    (filter (fun i => (i <? length (s_noncat s))%nat) ints).

(** User-supplied starting points 393-402: [expand_categorical_vars] asserts the number of
    columns (rbfopt_utils.py 711), then the integer variables are rounded. *)
Definition user_point (s : setup) (p : point) : option point :=
  if (length p =? length (s_cat s) + length (s_noncat s))%nat
  then Some (round_integer_vars (expand s p) (s_ints s)) else None.
