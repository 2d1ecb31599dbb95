(** * Function value scaling.

    Models rbfopt_utils.py [transform_function_values] 1644-1742.

    Definitions only.  Real arithmetic.  The five results of the function are the fields of
    [scaled]; the logarithms are those of the code, applied also to arguments that are not
    positive (numpy returns NaN there, Coq's [ln] returns 0): whether that happens is the
    subject of [log_args]. *)
From Verif Require Export ModelGeom.
Open Scope R_scope.

(** [settings.dynamism_clipping]; [settings.function_scaling] after 'auto' is resolved. *)
Inductive clipping := ClipOff | ClipMedian | ClipAtDyn.
Inductive fscaling := ScaleOff | ScaleAffine | ScaleLog.

(** [np.median]: the middle entry of the sorted vector, or the mean of the two middle ones. *)
Fixpoint rinsert (x : R) (l : list R) : list R :=
  match l with
  | [] => [x]
  | y :: r => if Rleb x y then x :: y :: r else y :: rinsert x r
  end.
Fixpoint rsort (l : list R) : list R :=
  match l with [] => [] | x :: r => rinsert x (rsort r) end.
Definition median (l : list R) : R :=
  let s := rsort l in
  let m := (length l / 2)%nat in
  if Nat.even (length l) then (nth (m - 1) s 0 + nth m s 0) / 2 else nth m s 0.

(** The dynamism test 1694-1698. *)
Definition high_dynamism (clip : clipping) (eps thr fmin fmax : R) : bool :=
  match clip with ClipOff => false | _ => true end &&
  ((Rltb eps (Rabs fmin) && Rltb thr (Rabs fmax / Rabs fmin)) ||
   (Rleb (Rabs fmin) eps && Rltb thr (Rabs fmax))).

(** 1694-1711: clipped values and the new [fmax]. *)
Definition clip_values (clip : clipping) (eps thr : R) (vals : list R) (fmin fmax : R) : list R * R :=
  if high_dynamism clip eps thr fmin fmax then
    match clip with
    | ClipMedian => let med := median vals in (map (fun v => Rmin v med) vals, med)
    | _ => let mult := if Rltb eps (Rabs fmin) then Rabs fmin else 1 in
           (map (fun v => Rmin v (thr * mult)) vals, thr * mult)
    end
  else (vals, fmax).

(** The shift of 1728-1733. *)
Definition log_shift (eps : R) (vals err_l : list R) : R :=
  let shift := Rmax 0 (1 - amin (map2 Rplus vals err_l)) in
  if Rltb 0 shift && Rltb (amin vals / shift) eps then shift + 1 / eps else shift.

Record scaled := mkScaled {
  sc_val : list R;            (* scaled_function_values *)
  sc_fmin : R;
  sc_fmax : R;
  sc_err : list (R * R);      (* scaled_error_bounds *)
  sc_fun : R -> R             (* rescale_function *)
}.

(** The function 1644-1742. *)
Definition transform_function_values (fs : fscaling) (clip : clipping) (eps thr : R)
    (vals : list R) (fmin fmax : R) (err : list (R * R)) : scaled :=
  let (clip_val, fmax') := clip_values clip eps thr vals fmin fmax in
  match fs with
  | ScaleOff => mkScaled clip_val fmin fmax' err (fun x => x)
  | ScaleAffine =>
      let wide := Rltb eps (fmax' - fmin) in
      let denom := if wide then fmax' - fmin else 1 in
      mkScaled (map (fun v => (v - fmin) / denom) clip_val) 0 (if wide then 1 else 0)
               (map (fun e => (fst e / denom, snd e / denom)) err)
               (fun x => (x - fmin) / denom)
  | ScaleLog =>
      let shift := log_shift eps vals (map fst err) in
      mkScaled (map (fun v => ln (v + shift)) clip_val) (ln (fmin + shift)) (ln (fmax' + shift))
               (map2 (fun e v => (ln ((fst e + v + shift) / (v + shift)), ln ((snd e + v + shift) / (v + shift))))
                     err clip_val)
               (fun x => if Rltb 0 (x + shift) then ln (x + shift) else x)
  end.

(** The numbers whose logarithm is taken in 1736-1740, and the divisors of 1736-1737. *)
Definition log_args (clip : clipping) (eps thr : R) (vals : list R) (fmin fmax : R)
    (err : list (R * R)) : list R :=
  let (clip_val, fmax') := clip_values clip eps thr vals fmin fmax in
  let shift := log_shift eps vals (map fst err) in
  map (fun v => v + shift) clip_val ++
  map2 (fun e v => (fst e + v + shift) / (v + shift)) err clip_val ++
  map2 (fun e v => (snd e + v + shift) / (v + shift)) err clip_val ++
  [fmin + shift; fmax' + shift].
