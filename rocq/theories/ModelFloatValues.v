(** * Rescaling of function values in IEEE 754 double arithmetic.

    The exact-arithmetic model of [transform_function_values] is in ModelScaling.  Here the same expressions are computed
    in doubles ([ModelFloat]) for function_scaling 'off' and 'affine'; 'log' is left out ([np.log] is not an IEEE operation),
    and so are the error bounds (zero without noise).  Definitions only. *)
From Verif Require Export ModelFloat.

Inductive clipping := ClipOff | ClipMedian | ClipAtDyn.

(** [np.clip(x, None, c)], rbfopt_utils.py 1700, 1705: a NaN is kept. *)
Definition fclipmax (c x : b64) : b64 := if is_nan x then x else if Bltb x c then x else c.
(** Sorting, for [np.median]. *)
Fixpoint finsert (x : b64) (l : list b64) : list b64 :=
  match l with [] => [x] | y :: r => if Bleb x y then x :: l else y :: finsert x r end.
Definition fsort (l : list b64) : list b64 := fold_right finsert [] l.
(** [np.median] 1699 of a list without NaN: the middle value, or half the sum of the two middle ones. *)
Definition f2 : b64 := fadd f1 f1.
Definition fmedian (l : list b64) : b64 :=
  let s := fsort l in let n := length l in
  if Nat.odd n then nth (Nat.div2 n) s fnan else fdiv (fadd (nth (Nat.div2 n - 1) s fnan) (nth (Nat.div2 n) s fnan)) f2.
(** The test for high dynamism, 1694-1698. *)
Definition high_dynamism (thr eps_zero fmin fmax : b64) : bool :=
  (Bltb eps_zero (Babs fmin) && Bltb thr (fdiv (Babs fmax) (Babs fmin))) || (Bleb (Babs fmin) eps_zero && Bltb thr (Babs fmax)).
(** The value at which the others are cut off, 1698-1710; [None]: they are not. *)
Definition cutoff (m : clipping) (thr eps_zero fmin fmax : b64) (vals : list b64) : option b64 :=
  match m with
  | ClipOff => None
  | ClipMedian => if high_dynamism thr eps_zero fmin fmax then Some (fmedian vals) else None
  | ClipAtDyn => if high_dynamism thr eps_zero fmin fmax
                 then Some (fmul thr (if Bltb eps_zero (Babs fmin) then Babs fmin else f1)) else None
  end.
(** [transform_function_values] 1712-1723: the transformed values, minimum and maximum. *)
Definition fvalues (affine : bool) (m : clipping) (thr eps_zero fmin fmax : b64) (vals : list b64) : list b64 * b64 * b64 :=
  let cut := cutoff m thr eps_zero fmin fmax vals in
  let clipped := match cut with None => vals | Some c => map (fclipmax c) vals end in
  let top := match cut with None => fmax | Some c => c end in
  if affine then
    let wide := Bltb eps_zero (fsub top fmin) in
    let denom := if wide then fsub top fmin else f1 in
    (map (fun v => fdiv (fsub v fmin) denom) clipped, f0, if wide then f1 else f0)
  else (clipped, fmin, top).
