(** * The matrix of the rank test of the initial sample

    Models rbfopt_utils.py 598-615 (in [initialize_nodes]).  Definitions only.  The singular values themselves are not
    modelled: the verdict of the test is an input of the loop ([a_independent]); here is the matrix it is computed from. *)
From Verif Require Export ModelInit.
Open Scope Q_scope.

(** 603-604, 614: [la.norm(nodes, axis=1) > eps_zero]; squares are compared (eps_zero is not negative). *)
Definition sum_sq (p : point) : Q := fold_right (fun x a => x * x + a) 0 p.
Definition nonzero_nodes (eps : Q) (nodes : list point) : list point :=
  filter (fun p => negb (Qle_bool (sum_sq p) (eps * eps))) nodes.
(** 609-611: all columns but the last one of every categorical variable. *)
Definition tested_columns (s : setup) (width : nat) : list nat :=
  filter (fun j => negb (memn j (map (fun e : nat * Q * list nat => last (snd e) 0%nat) (s_expansion s)))) (seq 0 width).
(** 612-613: the matrix of a sample drawn with a Latin hypercube strategy for a problem with categorical variables. *)
Definition tested_matrix (eps : Q) (s : setup) (nodes : list point) : list point :=
  map (fun p => take 0 (tested_columns s (length p)) p) (nonzero_nodes eps nodes).
