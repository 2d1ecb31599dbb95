(** * The estimate of the quality of a surrogate model.

    Models rbfopt_utils.py [get_model_quality_estimate] 1996-2094 and the way
    [get_best_rbf_model] 2152-2163 uses it.  Definitions only.

    Simplifications: real numbers instead of floats.  [node_val.argsort()] (2054) is an argument
    [perm], any order numpy may produce; [la.lu_factor] (2063) is an argument [factor] that gives
    the solving function of [la.lu_solve], [None] for an exception or a warning (a zero pivot is
    reported by a warning, and 2151-2152 turns warnings into exceptions); a division by 0 in 2084
    is a warning too. *)
From Verif Require Export ModelRBF ModelSelect.
Open Scope R_scope.

(** [np.searchsorted(a, v)] 2090, [a] in increasing order: first position whose entry is not
    smaller than [v]. *)
Fixpoint searchsorted (a : list R) (v : R) : nat :=
  match a with
  | [] => 0
  | x :: r => if Rltb x v then S (searchsorted r v) else 0
  end.

(** [a[perm]], 2057-2058. *)
Definition take {A} (d : A) (perm : list nat) (l : list A) : list A := map (fun i => nth i l d) perm.

(** One turn of the loop 2070-2091: the distance between the position of the prediction and [i]. *)
Definition loo_term (solve : list R -> list R) (kind : rbf_kind) (gamma eps : R) (n k : nat)
    (nodes : list rpoint) (vals : list R) (i : nat) : option Z :=
  let p := size_P kind n in
  let base := solve (rbf_rhs p vals) in
  let adj := solve (unit_vector (k + p) i) in
  if (Rltb eps (Rabs (nth i base 0)) && (if Req_EM_T (nth i adj 0) 0 then true else false))%bool
  then None
  else Some (Z.abs (Z.of_nat (searchsorted vals (loo_prediction solve kind gamma eps n k nodes vals i)) - Z.of_nat i)).
Fixpoint loo_sum (term : nat -> option Z) (is : list nat) (acc : Z) : option Z :=
  match is with
  | [] => Some acc
  | i :: r => match term i with Some e => loo_sum term r (acc + e) | None => None end
  end.

(** [get_model_quality_estimate] 1996-2094, with its assertions 2034-2042. *)
Definition get_model_quality_estimate (factor : mat -> option (list R -> list R)) (perm : list nat)
    (eps : R) (n k : nat) (nodes : list rpoint) (vals : list R) (num_nodes_to_check : nat)
    (m : rbf_kind * R) : option Z :=
  if ((length vals =? k) && (length nodes =? k) && (num_nodes_to_check <=? k) && (n + 2 <? k))%nat%bool
  then
    let (kind, gamma) := m in
    let cv_pos := take ([] : rpoint) perm nodes in
    let cv_val := take 0 perm vals in
    match factor (get_rbf_matrix kind gamma eps n cv_pos) with
    | None => None
    | Some solve => loo_sum (loo_term solve kind gamma eps n k cv_pos cv_val) (seq 0 num_nodes_to_check) 0
    end
  else None.

(** The cross validation of an iteration: [get_best_rbf_model] with that estimate, 2157-2158. *)
Definition cross_validate (factor : mat -> option (list R -> list R)) (perm : list nat)
    (eps : R) (n k : nat) (nodes : list rpoint) (vals : list R) (num_nodes_to_check : nat)
  : rbf_kind * R -> (rbf_kind * R) * (rbf_kind * R) :=
  get_best_rbf_model (get_model_quality_estimate factor perm eps n k nodes vals num_nodes_to_check).
