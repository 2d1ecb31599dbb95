(** * The stopping test and the treatment of proposed points in IEEE 754 double arithmetic.

    The exact-arithmetic models of these places are [compute_gap] and [loop_cond] (ModelAlg), [clip],
    [round_half_even] (ModelBase) and [near] (ModelAlg).  Here the same expressions are computed in doubles
    ([ModelFloat]).  Definitions only. *)
From Coq Require Export Permutation.
From Verif Require Export ModelFloat.

(** [compute_gap], rbfopt_utils.py 1635-1640. *)
Definition gap_den (target eps_zero : b64) : b64 := if Bleb eps_zero (Babs target) then Babs target else f1.
Definition fgap (target eps_zero fmin : b64) : b64 := fdiv (fsub fmin target) (gap_den target eps_zero).
(** The last part of the loop conditions, rbfopt_algorithm.py 858, 1288: [gap > eps_opt]. *)
Definition gap_goes_on (target eps_zero eps_opt fmin : b64) : bool := Bltb eps_opt (fgap target eps_zero fmin).

(** [np.clip] of one coordinate, rbfopt_algorithm.py 1085, 1416 (numpy: a NaN is kept; maximum with the lower
    bound, then minimum with the upper bound). *)
Definition fclip (lo up x : b64) : b64 :=
  if is_nan x then x
  else let y := if Bltb lo x then x else lo in if Bltb y up then y else up.
(** [np.around], rbfopt_utils.py 643; [np.floor], [np.ceil], 674-675. *)
Definition frint (x : b64) : b64 := Bnearbyint mode_NE x.
Definition ffloor (x : b64) : b64 := Bnearbyint mode_DN x.
Definition fceil (x : b64) : b64 := Bnearbyint mode_UP x.

(** Sum of the entries of a list, in any order and with any grouping: numpy and scipy do not fix them. *)
Inductive fsums : list b64 -> b64 -> Prop :=
| sum_none : fsums [] f0
| sum_one x : fsums [x] x
| sum_two a b x y : fsums a x -> fsums b y -> fsums (a ++ b) (fadd x y)
| sum_perm a b x : fsums a x -> Permutation a b -> fsums b x.
(** [distance] 906-908 and the entries of scipy's [cdist] 938: root of the sum of the squared differences.
    Simplification: no fused multiply-add. *)
Definition fsquares (p q : list b64) : list b64 :=
  map (fun ab => let d := fsub (fst ab) (snd ab) in fmul d d) (combine p q).
Definition fdistance (p q : list b64) (r : b64) : Prop := exists s, fsums (fsquares p q) s /\ r = Bsqrt mode_NE s.
(** [np.amin] 939: NaN if there is one. *)
Definition fminimum (l : list b64) : b64 :=
  match l with
  | [] => fnan
  | x :: r => fold_left (fun m y => if is_nan m then m else if is_nan y then y else if Bltb y m then y else m) r x
  end.
(** The test of rbfopt_algorithm.py 1089-1091: a proposal is discarded ([true]) or evaluated ([false]). *)
Definition fdiscards (min_dist : b64) (p : list b64) (nodes : list (list b64)) (ans : bool) : Prop :=
  exists ds, Forall2 (fdistance p) nodes ds /\ ans = Bleb (fminimum ds) min_dist.
