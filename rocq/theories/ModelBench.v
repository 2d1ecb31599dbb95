(** The benchmark functions shipped with the package
    (src/rbfopt/rbfopt_test_functions.py): for each class its declared
    dimension, bounds, variable types, optimum point and optimum value, and
    its [evaluate] method.

    Simplifications.  Numbers are exact: the decimal literals of the file
    are rationals, and [evaluate] is modelled over the real numbers, so
    double rounding is not modelled.  [math.fsum], [np.sum] and [sum] are
    plain sums.  A division by zero, a logarithm of a non-positive number,
    a square root or fractional power of a negative number, a category that
    no branch of the [if]/[elif] chain covers (the local function is then
    unbound) and an index outside a table make the evaluation [None].
    The two-argument lambdas of [gear4_cat] are never applied and are left
    out.  Generated by a script from the Python syntax tree (except for the
    general definitions below), so that the formulas are those of the file. *)
From Coq Require Import List String ZArith QArith Reals Qreals Bool.
From Verif Require Import ModelBenchData.
Import ListNotations.
Open Scope string_scope.
Open Scope R_scope.

(** [x[k]], coordinate [k] of the argument
    (src/rbfopt/rbfopt_test_functions.py:31). *)
Notation "x .[ k ]" := (x (k%nat)) (at level 2, k at level 200, only parsing).

(** A [var_type] entry, 'R', 'I' or 'C'
    (src/rbfopt/rbfopt_test_functions.py:42). *)
Inductive vtype := TR | TI | TC.

(** A function class (src/rbfopt/rbfopt_test_functions.py:22-42):
    [dimension], [var_lower], [var_upper], [var_type], [optimum_point],
    [optimum_value] and [evaluate] without its length assertion. *)
Record bench := {
  b_name : string; b_dim : nat;
  b_lo : list Q; b_up : list Q; b_type : list vtype;
  b_opt : list Q; b_val : Q;
  b_f : (nat -> R) -> option R }.

(** [evaluate] with its length assertion
    (src/rbfopt/rbfopt_test_functions.py:29-30). *)
Definition evaluate (b : bench) (p : list R) : option R :=
  if Nat.eqb (List.length p) (b_dim b) then b_f b (fun i => nth i p 0) else None.

(** Conditions under which an arithmetic operation of [evaluate] has a value:
    the divisor of src/rbfopt/rbfopt_test_functions.py:993, the logarithms
    of 1179-1188, the square root of 1039, the [if]/[elif] chain of
    1918-1925 and the table row of 1950. *)
Inductive cond :=
  | NonZero (r : R) | Pos (r : R) | NonNeg (r : R)
  | OneOf (r : R) (l : list Z) | Index (r : R) (n : Z)
  | When (r : R) (k : Z) (c : cond).

(** Whether a condition holds (same lines). *)
Fixpoint holds (c : cond) : bool :=
  match c with
  | NonZero r => if Req_EM_T r 0 then false else true
  | Pos r => if Rlt_dec 0 r then true else false
  | NonNeg r => if Rle_dec 0 r then true else false
  | OneOf r l => existsb (fun k => if Req_EM_T r (IZR k) then true else false) l
  | Index r n => (0 <=? Int_part r)%Z && (Int_part r <? n)%Z
  | When r k d => if Req_EM_T r (IZR k) then holds d else true
  end.

(** The value of an expression whose operations need the conditions [cs]
    (same lines). *)
Definition guard (cs : list cond) (v : R) : option R :=
  if forallb holds cs then Some v else None.

(** [math.fsum] over [range(n)] (src/rbfopt/rbfopt_test_functions.py:55-59). *)
Fixpoint rsum (n : nat) (f : nat -> R) : R :=
  match n with O => 0 | S m => rsum m f + f m end.

(** The running product [prod] (src/rbfopt/rbfopt_test_functions.py:464-467). *)
Fixpoint rprod (n : nat) (f : nat -> R) : R :=
  match n with O => 1 | S m => rprod m f * f m end.

(** Table entry [cls.c[i]] (src/rbfopt/rbfopt_test_functions.py:55). *)
Definition entry (l : list Q) (i : nat) : R := Q2R (nth i l 0%Q).

(** Table entry [row[-1]] (src/rbfopt/rbfopt_test_functions.py:2540). *)
Definition last_entry (l : list Q) : R := Q2R (last l 0%Q).

(** Table row [cls.c[int(v)]] (src/rbfopt/rbfopt_test_functions.py:1950);
    [Int_part] agrees with [int] on the non-negative values that pass the
    [Index] condition. *)
Definition row (t : list (list Q)) (v : R) : list Q :=
  nth (Z.to_nat (Int_part v)) t [].

(** [a ** 0.2] for a non-negative base, with 0 ** 0.2 = 0
    (src/rbfopt/rbfopt_test_functions.py:942, 1189). *)
Definition rpow (a e : R) : R := if Req_EM_T a 0 then 0 else Rpower a e.

(** The [if (x[k] == c): fun = ...] chain
    (src/rbfopt/rbfopt_test_functions.py:1918-1925); with no matching branch
    the local is unbound, which the [OneOf] condition excludes. *)
Fixpoint pick (v : R) (l : list (Z * (R -> R))) (y : R) : R :=
  match l with
  | [] => 0
  | (k, g) :: l' => if Req_EM_T v (IZR k) then g y else pick v l' y
  end.

(** The Schoen interpolation formula
    (src/rbfopt/rbfopt_test_functions.py:458-471): [w i j] is the distance
    of the argument to stationary point [j] used in the product for [i]. *)
Definition schoen_prod (w : nat -> nat -> R) (i : nat) : R :=
  rprod 50 (fun j => if Nat.eqb i j then 1 else w i j).
Definition schoen_value (w : nat -> nat -> R) (f : list Q) : R :=
  rsum 50 (fun i => entry f i * schoen_prod w i) / rsum 50 (schoen_prod w).

(** The [evaluate] of the Schoen functions
    (src/rbfopt/rbfopt_test_functions.py:454-472, and 1428-1446 with the
    argument divided by 10). *)
Definition schoen (z : list (list Q)) (f : list Q) (n : nat) (scale : R)
    (x : nat -> R) : option R :=
  let dist (i j : nat) :=
    rsum n (fun k => (x k / scale - entry (nth j z []) k) ^ 2) in
  guard [NonZero (rsum 50 (schoen_prod dist))] (schoen_value dist f).

(** The [evaluate] of the categorical Schoen functions
    (src/rbfopt/rbfopt_test_functions.py:2065-2113): the first 25 products
    use [fun1], the others [fun2]. *)
Definition schoen_cat (z : list (list Q)) (f : list Q) (n : nat)
    (x : nat -> R) : option R :=
  let fun1 := pick x.[0]
    [(0%Z, fun y => y ^ 2); (1%Z, fun y => Rabs (y + 50));
     (2%Z, fun y => ln (y + 10)); (3%Z, fun y => sin y ^ 2)] in
  let fun2 := pick x.[1]
    [(0%Z, fun y => ln (y + 10)); (1%Z, fun y => Rabs (y + 50));
     (2%Z, fun y => y ^ 2); (3%Z, fun y => sin y ^ 2)] in
  let arg (j k : nat) := x.[2 + k] - entry (nth j z []) k in
  let dist (i j : nat) :=
    rsum n (fun k => if Nat.ltb i 25 then fun1 (arg j k) else fun2 (arg j k)) in
  guard ([OneOf x.[0] [0; 1; 2; 3]%Z; OneOf x.[1] [0; 1; 2; 3]%Z;
          NonZero (rsum 50 (schoen_prod dist))]
         ++ flat_map (fun j => flat_map (fun k =>
              [When x.[0] 2 (Pos (arg j k + 10)); When x.[1] 0 (Pos (arg j k + 10))])
              (seq 0 n)) (seq 0 50))%list
    (schoen_value dist f).

(** One step [si] of the Schaeffer functions
    (src/rbfopt/rbfopt_test_functions.py:939-940). *)
Definition schaeffer_si (base : R) (opt : list Q) (x : nat -> R) (i : nat) : R :=
  base ^ i * sqrt ((x i - entry opt i) ^ 2 + (x.[i + 1] - entry opt (i + 1)%nat) ^ 2).

(** The loop of the Schaeffer functions over the 11 consecutive pairs of
    variables, with [normalizer] 1/11
    (src/rbfopt/rbfopt_test_functions.py:936-943, and 2579-2586 where the
    categorical variable is not part of a pair). *)
Definition schaeffer_sum (base : R) (opt : list Q) (wave : R -> R) (x : nat -> R) : R :=
  rsum 11 (fun i => (1 / 11 * sqrt (schaeffer_si base opt x i) *
                     (wave (50 * rpow (schaeffer_si base opt x i) (20 / 100)) + 1)) ^ 2).

(** The [evaluate] of the Schaeffer functions
    (src/rbfopt/rbfopt_test_functions.py:934-943, 961-970); every square
    root and power is of a non-negative number. *)
Definition schaeffer (base : R) (opt : list Q) (c : R) (x : nat -> R) : option R :=
  Some (schaeffer_sum base opt sin x + c).

(** The [evaluate] of the categorical Schaeffer functions
    (src/rbfopt/rbfopt_test_functions.py:2567-2586). *)
Definition schaeffer_cat (base : R) (opt : list Q) (c : R) (x : nat -> R) : option R :=
  guard [OneOf x.[12] [0; 1; 2; 3]%Z]
    (schaeffer_sum base opt
       (pick x.[12] [(0%Z, fun y => cos y); (1%Z, fun y => sin y);
          (2%Z, fun y => cos (y + PI / 4) ^ 2); (3%Z, fun y => sin (y + PI / 4) ^ 2)]) x + c).


(** src/rbfopt/rbfopt_test_functions.py:22-42, [branin.evaluate] at 28-33. *)
Definition branin_f_eval (x : nat -> R) : option R :=
  Some ((x.[1] - (51 / 10) / (4 * PI * PI) * x.[0] * x.[0] + 5 / PI * x.[0] - 6) ^ 2 + 10 * (1 - 1 /
      (8 * PI)) * cos (x.[0]) + 10).
Definition branin : bench := {|
  b_name := "branin"; b_dim := 2;
  b_lo := ([(-5); 0])%Q;
  b_up := ([10; 15])%Q;
  b_type := [TR; TR];
  b_opt := ([942477796#100000000; 247499998#100000000])%Q;
  b_val := (397887357729739#1000000000000000)%Q;
  b_f := branin_f_eval |}.

(** src/rbfopt/rbfopt_test_functions.py:46-75, [hartman3.evaluate] at 52-59. *)
Definition hartman3_f_eval (x : nat -> R) : option R :=
  Some (- rsum 4 (fun i => entry hartman3_c i * exp (- rsum 3 (fun j => entry (nth j hartman3_a []) i
      * (x.[j] - entry (nth j hartman3_p []) i) ^ 2)))).
Definition hartman3 : bench := {|
  b_name := "hartman3"; b_dim := 3;
  b_lo := (repeat 0 3)%Q;
  b_up := (repeat 1 3)%Q;
  b_type := [TR; TR; TR];
  b_opt := ([1#10; 55592003#100000000; 85218259#100000000])%Q;
  b_val := (-38626347486217725#10000000000000000)%Q;
  b_f := hartman3_f_eval |}.

(** src/rbfopt/rbfopt_test_functions.py:79-114, [hartman6.evaluate] at 85-92. *)
Definition hartman6_f_eval (x : nat -> R) : option R :=
  Some (- rsum 4 (fun i => entry hartman6_c i * exp (- rsum 6 (fun j => entry (nth j hartman6_a []) i
      * (x.[j] - entry (nth j hartman6_p []) i) ^ 2)))).
Definition hartman6 : bench := {|
  b_name := "hartman6"; b_dim := 6;
  b_lo := (repeat 0 6)%Q;
  b_up := (repeat 1 6)%Q;
  b_type := [TR; TR; TR; TR; TR; TR];
  b_opt := ([20168952#100000000; 15001069#100000000; 47687398#100000000; 27533243#100000000; 31165162#100000000;
    65730054#100000000])%Q;
  b_val := (-332236801141551#100000000000000)%Q;
  b_f := hartman6_f_eval |}.

(** src/rbfopt/rbfopt_test_functions.py:118-135, [camel.evaluate] at 124-128. *)
Definition camel_f_eval (x : nat -> R) : option R :=
  Some ((4 - (21 / 10) * x.[0] ^ 2 + x.[0] ^ 4 / 3) * x.[0] ^ 2 + x.[0] * x.[1] + (- 4 + 4 * x.[1] ^
      2) * x.[1] ^ 2).
Definition camel : bench := {|
  b_name := "camel"; b_dim := 2;
  b_lo := ([(-3); (-2)])%Q;
  b_up := ([3; 2])%Q;
  b_type := [TR; TR];
  b_opt := ([8984201#100000000; -7126#10000])%Q;
  b_val := (-10316284535#10000000000)%Q;
  b_f := camel_f_eval |}.

(** src/rbfopt/rbfopt_test_functions.py:139-160, [goldsteinprice.evaluate] at 145-153. *)
Definition goldsteinprice_f_eval (x : nat -> R) : option R :=
  Some ((1 + (x.[0] + x.[1] + 1) ^ 2 * (19 - 14 * x.[0] + 3 * x.[0] ^ 2 - 14 * x.[1] + 6 * x.[0] *
      x.[1] + 3 * x.[1] ^ 2)) * (30 + (2 * x.[0] - 3 * x.[1]) ^ 2 * (18 - 32 * x.[0] + 12 * x.[0] ^
      2 + 48 * x.[1] - 36 * x.[0] * x.[1] + 27 * x.[1] ^ 2))).
Definition goldsteinprice : bench := {|
  b_name := "goldsteinprice"; b_dim := 2;
  b_lo := ([(-2); (-2)])%Q;
  b_up := ([2; 2])%Q;
  b_type := [TR; TR];
  b_opt := ([0; (-1)])%Q;
  b_val := (3)%Q;
  b_f := goldsteinprice_f_eval |}.

(** src/rbfopt/rbfopt_test_functions.py:164-189, [shekel5.evaluate] at 170-176. *)
Definition shekel5_f_eval (x : nat -> R) : option R :=
  guard (map (fun j => NonZero (rsum 4 (fun i => (x.[i] - entry (nth i shekel5_a []) j) ^ 2) + entry
      shekel5_c j)) (seq 0 5))%list
    (- rsum 5 (fun j => 1 / (rsum 4 (fun i => (x.[i] - entry (nth i shekel5_a []) j) ^ 2) + entry
      shekel5_c j))).
Definition shekel5 : bench := {|
  b_name := "shekel5"; b_dim := 4;
  b_lo := (repeat 0 4)%Q;
  b_up := (repeat 10 4)%Q;
  b_type := [TR; TR; TR; TR];
  b_opt := ([4; 4; 4; 4])%Q;
  b_val := (-10153195850979#1000000000000)%Q;
  b_f := shekel5_f_eval |}.

(** src/rbfopt/rbfopt_test_functions.py:193-219, [shekel7.evaluate] at 199-205. *)
Definition shekel7_f_eval (x : nat -> R) : option R :=
  guard (map (fun j => NonZero (rsum 4 (fun i => (x.[i] - entry (nth i shekel7_a []) j) ^ 2) + entry
      shekel7_c j)) (seq 0 7))%list
    (- rsum 7 (fun j => 1 / (rsum 4 (fun i => (x.[i] - entry (nth i shekel7_a []) j) ^ 2) + entry
      shekel7_c j))).
Definition shekel7 : bench := {|
  b_name := "shekel7"; b_dim := 4;
  b_lo := (repeat 0 4)%Q;
  b_up := (repeat 10 4)%Q;
  b_type := [TR; TR; TR; TR];
  b_opt := ([4; 4; 4; 4])%Q;
  b_val := (-104028188369303#10000000000000)%Q;
  b_f := shekel7_f_eval |}.

(** src/rbfopt/rbfopt_test_functions.py:223-248, [shekel10.evaluate] at 229-235. *)
Definition shekel10_f_eval (x : nat -> R) : option R :=
  guard (map (fun j => NonZero (rsum 4 (fun i => (x.[i] - entry (nth i shekel10_a []) j) ^ 2) + entry
      shekel10_c j)) (seq 0 10))%list
    (- rsum 10 (fun j => 1 / (rsum 4 (fun i => (x.[i] - entry (nth i shekel10_a []) j) ^ 2) + entry
      shekel10_c j))).
Definition shekel10 : bench := {|
  b_name := "shekel10"; b_dim := 4;
  b_lo := (repeat 0 4)%Q;
  b_up := (repeat 10 4)%Q;
  b_type := [TR; TR; TR; TR];
  b_opt := ([4; 4; 4; 4])%Q;
  b_val := (-105362837262196#10000000000000)%Q;
  b_f := shekel10_f_eval |}.

(** src/rbfopt/rbfopt_test_functions.py:252-271, [ex4_1_1.evaluate] at 258-264. *)
Definition ex4_1_1_f_eval (x : nat -> R) : option R :=
  Some (x.[0] ^ 6 - 52 / 25 * x.[0] ^ 5 + 39 / 80 * x.[0] ^ 4 + 71 / 10 * x.[0] ^ 3 - 79 / 20 * x.[0]
      ^ 2 - x.[0] + 1 / 10).
Definition ex4_1_1 : bench := {|
  b_name := "ex4_1_1"; b_dim := 1;
  b_lo := ([(-2)])%Q;
  b_up := ([11])%Q;
  b_type := [TR];
  b_opt := ([-119131#100000])%Q;
  b_val := (-7487312360731#1000000000000)%Q;
  b_f := ex4_1_1_f_eval |}.

(** src/rbfopt/rbfopt_test_functions.py:275-303, [ex4_1_2.evaluate] at 281-296. *)
Definition ex4_1_2_f_eval (x : nat -> R) : option R :=
  Some (rsum 50 (fun i => entry ex4_1_2_a i * x.[0] ^ ((i + 1))%nat)).
Definition ex4_1_2 : bench := {|
  b_name := "ex4_1_2"; b_dim := 1;
  b_lo := ([1])%Q;
  b_up := ([2])%Q;
  b_type := [TR];
  b_opt := ([109106#100000])%Q;
  b_val := (-6634993631230575#10000000000000)%Q;
  b_f := ex4_1_2_f_eval |}.

(** src/rbfopt/rbfopt_test_functions.py:307-324, [ex8_1_1.evaluate] at 313-317. *)
Definition ex8_1_1_f_eval (x : nat -> R) : option R :=
  guard [NonZero (x.[1] ^ 2 + 1)]
    (cos (x.[0]) * sin (x.[1]) - x.[0] / (x.[1] ^ 2 + 1)).
Definition ex8_1_1 : bench := {|
  b_name := "ex8_1_1"; b_dim := 2;
  b_lo := ([(-1); (-1)])%Q;
  b_up := ([2; 1])%Q;
  b_type := [TR; TR];
  b_opt := ([2; 105783#1000000])%Q;
  b_val := (-20218067833#10000000000)%Q;
  b_f := ex8_1_1_f_eval |}.

(** src/rbfopt/rbfopt_test_functions.py:328-345, [ex8_1_4.evaluate] at 334-338. *)
Definition ex8_1_4_f_eval (x : nat -> R) : option R :=
  Some (12 * x.[0] ^ 2 - (63 / 10) * x.[0] ^ 4 + x.[0] ^ 6 - 6 * x.[0] * x.[1] + 6 * x.[1] ^ 2).
Definition ex8_1_4 : bench := {|
  b_name := "ex8_1_4"; b_dim := 2;
  b_lo := ([(-2); (-5)])%Q;
  b_up := ([4; 2])%Q;
  b_type := [TR; TR];
  b_opt := ([0; 0])%Q;
  b_val := (0)%Q;
  b_f := ex8_1_4_f_eval |}.

(** src/rbfopt/rbfopt_test_functions.py:349-371, [least.evaluate] at 355-364. *)
Definition least_f_eval (x : nat -> R) : option R :=
  Some ((127 + (- x.[1]) * exp ((- 5) * x.[2]) - x.[0]) ^ 2 + (151 + (- x.[1]) * exp ((- 3) * x.[2]) -
      x.[0]) ^ 2 + (379 + (- x.[1]) * exp (- x.[2]) - x.[0]) ^ 2 + (421 + (- x.[1]) * exp (5 *
      x.[2]) - x.[0]) ^ 2 + (460 + (- x.[1]) * exp (3 * x.[2]) - x.[0]) ^ 2 + (426 + (- x.[1]) * exp
      (x.[2]) - x.[0]) ^ 2).
Definition least : bench := {|
  b_name := "least"; b_dim := 3;
  b_lo := ([0; (-200); (-5)])%Q;
  b_up := ([600; 200; 5])%Q;
  b_type := [TR; TR; TR];
  b_opt := ([516651174172#1000000000; -149351893696#1000000000; -206642767973#1000000000000])%Q;
  b_val := (14085139848928#1000000000)%Q;
  b_f := least_f_eval |}.

(** src/rbfopt/rbfopt_test_functions.py:376-393, [rbrock.evaluate] at 382-386. *)
Definition rbrock_f_eval (x : nat -> R) : option R :=
  Some (100 * (x.[1] - x.[0] ^ 2) ^ 2 + (1 - x.[0]) ^ 2).
Definition rbrock : bench := {|
  b_name := "rbrock"; b_dim := 2;
  b_lo := ([(-10); (-10)])%Q;
  b_up := ([5; 10])%Q;
  b_type := [TR; TR];
  b_opt := ([1; 1])%Q;
  b_val := (0)%Q;
  b_f := rbrock_f_eval |}.

(** src/rbfopt/rbfopt_test_functions.py:397-419, [perm_6.evaluate] at 405-412. *)
Definition perm_6_f_eval (x : nat -> R) : option R :=
  Some (rsum 6 (fun k => rsum 6 (fun i => ((INR i + 1) ^ (k)%nat + 60) * ((x.[i] / (INR i + 1)) ^
      (k)%nat - 1)) ^ 2) + 1000).
Definition perm_6 : bench := {|
  b_name := "perm_6"; b_dim := 6;
  b_lo := (repeat (-6 # 1) 6)%Q;
  b_up := (repeat 6 6)%Q;
  b_type := [TR; TR; TR; TR; TR; TR];
  b_opt := ([1; 2; 3; 4; 5; 6])%Q;
  b_val := (1000)%Q;
  b_f := perm_6_f_eval |}.

(** src/rbfopt/rbfopt_test_functions.py:423-445, [perm0_8.evaluate] at 431-438. *)
Definition perm0_8_f_eval (x : nat -> R) : option R :=
  Some (rsum 8 (fun k => rsum 8 (fun i => (INR i + 1 + 100) * (x.[i] ^ (k)%nat - (1 / (INR i + 1)) ^
      (k)%nat)) ^ 2) + 1000).
Definition perm0_8 : bench := {|
  b_name := "perm0_8"; b_dim := 8;
  b_lo := (repeat (-1 # 1) 8)%Q;
  b_up := (repeat 1 8)%Q;
  b_type := [TR; TR; TR; TR; TR; TR; TR; TR];
  b_opt := ([1; 5#10; 1#3; 25#100; 2#10; 1#6; 1#7; 125#1000])%Q;
  b_val := (1000)%Q;
  b_f := perm0_8_f_eval |}.

(** src/rbfopt/rbfopt_test_functions.py:449-539, [schoen_6_1.evaluate] at 455-472. *)
Definition schoen_6_1_f_eval (x : nat -> R) : option R :=
  schoen schoen_6_1_z schoen_6_1_f 6 1 x.
Definition schoen_6_1 : bench := {|
  b_name := "schoen_6_1"; b_dim := 6;
  b_lo := (repeat 0 6)%Q;
  b_up := (repeat 1 6)%Q;
  b_type := [TR; TR; TR; TR; TR; TR];
  b_opt := ([298854#1000000; 18101#100000; 984817#1000000; 125272#1000000; 548396#1000000; 894658#1000000])%Q;
  b_val := ((-1000))%Q;
  b_f := schoen_6_1_f_eval |}.

(** src/rbfopt/rbfopt_test_functions.py:543-633, [schoen_6_2.evaluate] at 549-566. *)
Definition schoen_6_2_f_eval (x : nat -> R) : option R :=
  schoen schoen_6_2_z schoen_6_2_f 6 1 x.
Definition schoen_6_2 : bench := {|
  b_name := "schoen_6_2"; b_dim := 6;
  b_lo := (repeat 0 6)%Q;
  b_up := (repeat 1 6)%Q;
  b_type := [TR; TR; TR; TR; TR; TR];
  b_opt := ([669711#1000000; 81554#100000; 64612#100000; 377447#1000000; 111538#1000000; 40529#1000000])%Q;
  b_val := ((-1000))%Q;
  b_f := schoen_6_2_f_eval |}.

(** src/rbfopt/rbfopt_test_functions.py:637-778, [schoen_10_1.evaluate] at 643-660. *)
Definition schoen_10_1_f_eval (x : nat -> R) : option R :=
  schoen schoen_10_1_z schoen_10_1_f 10 1 x.
Definition schoen_10_1 : bench := {|
  b_name := "schoen_10_1"; b_dim := 10;
  b_lo := (repeat 0 10)%Q;
  b_up := (repeat 1 10)%Q;
  b_type := [TR; TR; TR; TR; TR; TR; TR; TR; TR; TR];
  b_opt := ([914871#1000000; 76523#100000; 139426#1000000; 617466#1000000; 823635#1000000; 794003#1000000;
    801171#1000000; 568811#1000000; 279434#1000000; 540422#1000000])%Q;
  b_val := ((-1000))%Q;
  b_f := schoen_10_1_f_eval |}.

(** src/rbfopt/rbfopt_test_functions.py:782-924, [schoen_10_2.evaluate] at 788-805. *)
Definition schoen_10_2_f_eval (x : nat -> R) : option R :=
  schoen schoen_10_2_z schoen_10_2_f 10 1 x.
Definition schoen_10_2 : bench := {|
  b_name := "schoen_10_2"; b_dim := 10;
  b_lo := (repeat 0 10)%Q;
  b_up := (repeat 1 10)%Q;
  b_type := [TR; TR; TR; TR; TR; TR; TR; TR; TR; TR];
  b_opt := ([131461#1000000; 965235#1000000; 46134#1000000; 983011#1000000; 719813#1000000; 827542#1000000;
    662422#1000000; 570546#1000000; 578707#1000000; 13264#1000000])%Q;
  b_val := ((-1000))%Q;
  b_f := schoen_10_2_f_eval |}.

(** src/rbfopt/rbfopt_test_functions.py:928-952, [schaeffer_f7_12_1.evaluate] at 934-943. *)
Definition schaeffer_f7_12_1_opt : list Q :=
  [-3432567#100000; -3498896#100000; 769262#100000; 303388#10000; -4824371#100000; 2318355#100000;
   2493374#100000; 3207436#100000; 4686153#100000; 464872#100000; 2564591#100000; -1669128#100000]%Q.
Definition schaeffer_f7_12_1_f_eval (x : nat -> R) : option R :=
  schaeffer 2 schaeffer_f7_12_1_opt (-10) x.
Definition schaeffer_f7_12_1 : bench := {|
  b_name := "schaeffer_f7_12_1"; b_dim := 12;
  b_lo := (repeat (-50 # 1) 12)%Q;
  b_up := (repeat 50 12)%Q;
  b_type := [TR; TR; TR; TR; TR; TR; TR; TR; TR; TR; TR; TR];
  b_opt := schaeffer_f7_12_1_opt;
  b_val := ((-10))%Q;
  b_f := schaeffer_f7_12_1_f_eval |}.

(** src/rbfopt/rbfopt_test_functions.py:955-979, [schaeffer_f7_12_2.evaluate] at 961-970. *)
Definition schaeffer_f7_12_2_opt : list Q :=
  [-8214#1000; 3069133#100000; 4826095#100000; -494219#100000; 1515357#100000; 4841#10000;
   -1354025#100000; -4078766#100000; -1602916#100000; 1642138#100000; 3930248#100000; -4956986#100000]%Q.
Definition schaeffer_f7_12_2_f_eval (x : nat -> R) : option R :=
  schaeffer 3 schaeffer_f7_12_2_opt (10) x.
Definition schaeffer_f7_12_2 : bench := {|
  b_name := "schaeffer_f7_12_2"; b_dim := 12;
  b_lo := (repeat (-50 # 1) 12)%Q;
  b_up := (repeat 50 12)%Q;
  b_type := [TR; TR; TR; TR; TR; TR; TR; TR; TR; TR; TR; TR];
  b_opt := schaeffer_f7_12_2_opt;
  b_val := (10)%Q;
  b_f := schaeffer_f7_12_2_f_eval |}.

(** src/rbfopt/rbfopt_test_functions.py:984-1001, [gear.evaluate] at 990-994. *)
Definition gear_f_eval (x : nat -> R) : option R :=
  guard [NonZero (x.[2] * x.[3])]
    (((14427932477276 / 100000000000000) - x.[0] * x.[1] / (x.[2] * x.[3])) ^ 2).
Definition gear : bench := {|
  b_name := "gear"; b_dim := 4;
  b_lo := (repeat 12 4)%Q;
  b_up := (repeat 60 4)%Q;
  b_type := [TI; TI; TI; TI];
  b_opt := ([12; 23; 58; 33])%Q;
  b_val := (0)%Q;
  b_f := gear_f_eval |}.

(** src/rbfopt/rbfopt_test_functions.py:1005-1026, [gear4.evaluate] at 1011-1019. *)
Definition gear4_f_eval (x : nat -> R) : option R :=
  guard [NonZero (x.[2] * x.[3])]
    ((- 1000000) * x.[0] * x.[1] / (x.[2] * x.[3]) + 2 * x.[4] + (14427932477276 / 100000000) + 10 *
      Rmax (0) (- ((- 1000000) * x.[0] * x.[1] / (x.[2] * x.[3]) + x.[4] + (14427932477276 /
      100000000)))).
Definition gear4 : bench := {|
  b_name := "gear4"; b_dim := 5;
  b_lo := ([12; 12; 12; 12; 0])%Q;
  b_up := ([60; 60; 60; 60; 100])%Q;
  b_type := [TI; TI; TI; TI; TR];
  b_opt := ([19; 16; 43; 49; 164342847396619#100000000000000])%Q;
  b_val := (16434284739#10000000000)%Q;
  b_f := gear4_f_eval |}.

(** src/rbfopt/rbfopt_test_functions.py:1030-1068, [nvs02.evaluate] at 1036-1061. *)
Definition nvs02_f_eval (x : nat -> R) : option R :=
  guard [NonNeg (x.[2])]
    ((1 / 10000) * ((53578547 / 10000000) * sqrt (x.[2]) + (8356891 / 10000000) * x.[0] * x.[4] +
      (37293239 / 1000000) * x.[0]) + (59207859 / 10000000) + (0 + 10 * Rmax (0) (- ((56858 /
      10000000) * x.[1] * x.[4] + (6262 / 10000000) * x.[0] * x.[3] - (22053 / 10000000) * x.[2] *
      x.[4] + (85334407 / 1000000))) + 10 * Rmax (0) ((56858 / 10000000) * x.[1] * x.[4] + (6262 /
      10000000) * x.[0] * x.[3] - (22053 / 10000000) * x.[2] * x.[4] + (85334407 / 1000000) - 92) +
      10 * Rmax (0) (- ((71317 / 10000000) * x.[1] * x.[4] + (29955 / 10000000) * x.[0] * x.[1] +
      (21813 / 10000000) * sqrt (x.[2]) + (8051249 / 100000)) + 90) + 10 * Rmax (0) ((71317 /
      10000000) * x.[1] * x.[4] + (29955 / 10000000) * x.[0] * x.[1] + (21813 / 10000000) * sqrt
      (x.[2]) + (8051249 / 100000) - 110) + 10 * Rmax (0) (- ((47026 / 10000000) * x.[2] * x.[4] +
      (12547 / 10000000) * x.[0] * x.[2] + (19085 / 10000000) * x.[2] * x.[3] + (9300961 / 1000000))
      + 20) + 10 * Rmax (0) ((47026 / 10000000) * x.[2] * x.[4] + (12547 / 10000000) * x.[0] * x.[2]
      + (19085 / 10000000) * x.[2] * x.[3] + (9300961 / 1000000) - 25))).
Definition nvs02 : bench := {|
  b_name := "nvs02"; b_dim := 5;
  b_lo := (repeat 0 5)%Q;
  b_up := (repeat 200 5)%Q;
  b_type := [TI; TI; TI; TI; TI];
  b_opt := ([0; 9; 9; 200; 197])%Q;
  b_val := (59223932564100004#10000000000000000)%Q;
  b_f := nvs02_f_eval |}.

(** src/rbfopt/rbfopt_test_functions.py:1073-1096, [nvs03.evaluate] at 1079-1089. *)
Definition nvs03_f_eval (x : nat -> R) : option R :=
  Some ((- 8 + x.[0]) ^ 2 + (- 2 + x.[1]) ^ 2 + (0 + 100 * Rmax (0) (- ((- (1 / 10)) * x.[0] ^ 2 +
      x.[1])) + 100 * Rmax (0) (- ((- (333333333333333 / 1000000000000000)) * x.[0] - x.[1] + (45 /
      10))))).
Definition nvs03 : bench := {|
  b_name := "nvs03"; b_dim := 2;
  b_lo := ([0; 0])%Q;
  b_up := ([200; 200])%Q;
  b_type := [TI; TI];
  b_opt := ([4; 2])%Q;
  b_val := (16)%Q;
  b_f := nvs03_f_eval |}.

(** src/rbfopt/rbfopt_test_functions.py:1100-1117, [nvs04.evaluate] at 1106-1110. *)
Definition nvs04_f_eval (x : nat -> R) : option R :=
  Some (100 * ((5 / 10) + x.[1] - ((6 / 10) + x.[0]) ^ 2) ^ 2 + ((4 / 10) - x.[0]) ^ 2).
Definition nvs04 : bench := {|
  b_name := "nvs04"; b_dim := 2;
  b_lo := ([0; 0])%Q;
  b_up := ([200; 200])%Q;
  b_type := [TI; TI];
  b_opt := ([1; 2])%Q;
  b_val := (72#100)%Q;
  b_f := nvs04_f_eval |}.

(** src/rbfopt/rbfopt_test_functions.py:1121-1139, [nvs06.evaluate] at 1127-1132. *)
Definition nvs06_f_eval (x : nat -> R) : option R :=
  guard [NonZero (x.[0] ^ 2); NonZero ((x.[0] * x.[1]) ^ 4)]
    ((1 / 10) * (x.[0] ^ 2 + (1 + x.[1] ^ 2) / x.[0] ^ 2 + (100 + x.[0] ^ 2 * x.[1] ^ 2) / (x.[0] *
      x.[1]) ^ 4) + (12 / 10)).
Definition nvs06 : bench := {|
  b_name := "nvs06"; b_dim := 2;
  b_lo := ([1; 1])%Q;
  b_up := ([200; 200])%Q;
  b_type := [TI; TI];
  b_opt := ([2; 2])%Q;
  b_val := (17703125#10000000)%Q;
  b_f := nvs06_f_eval |}.

(** src/rbfopt/rbfopt_test_functions.py:1143-1166, [nvs07.evaluate] at 1149-1159. *)
Definition nvs07_f_eval (x : nat -> R) : option R :=
  Some (2 * x.[1] ^ 2 + x.[0] + 5 * x.[2] + (0 + 10 * Rmax (0) (- (x.[2] ^ 2 * x.[1] + 5 * x.[2] + 3 *
      x.[0] - 10)) + 10 * Rmax (0) (- (x.[0] - x.[2] - (266 / 100))))).
Definition nvs07 : bench := {|
  b_name := "nvs07"; b_dim := 3;
  b_lo := (repeat 0 3)%Q;
  b_up := (repeat 200 3)%Q;
  b_type := [TI; TI; TI];
  b_opt := ([4; 0; 0])%Q;
  b_val := (4)%Q;
  b_f := nvs07_f_eval |}.

(** src/rbfopt/rbfopt_test_functions.py:1170-1197, [nvs09.evaluate] at 1176-1190. *)
Definition nvs09_f_eval (x : nat -> R) : option R :=
  guard ([NonNeg (x.[0] * x.[1] * x.[2] * x.[3] * x.[4] * x.[5] * x.[6] * x.[7] * x.[8] * x.[9])] ++
      flat_map (fun i => [Pos (x.[i] - 2); Pos (10 - x.[i])]) (seq 0 10))%list
    (ln (x.[0] - 2) ^ 2 + ln (10 - x.[0]) ^ 2 + ln (x.[1] - 2) ^ 2 + ln (10 - x.[1]) ^ 2 + ln (x.[2]
      - 2) ^ 2 + ln (10 - x.[2]) ^ 2 + ln (x.[3] - 2) ^ 2 + ln (10 - x.[3]) ^ 2 + ln (x.[4] - 2) ^ 2
      + ln (10 - x.[4]) ^ 2 + ln (x.[5] - 2) ^ 2 + ln (10 - x.[5]) ^ 2 + ln (x.[6] - 2) ^ 2 + ln (10
      - x.[6]) ^ 2 + ln (x.[7] - 2) ^ 2 + ln (10 - x.[7]) ^ 2 + ln (x.[8] - 2) ^ 2 + ln (10 - x.[8])
      ^ 2 + ln (x.[9] - 2) ^ 2 + ln (10 - x.[9]) ^ 2 - (rpow (x.[0] * x.[1] * x.[2] * x.[3] * x.[4]
      * x.[5] * x.[6] * x.[7] * x.[8] * x.[9]) (2 / 10))).
Definition nvs09 : bench := {|
  b_name := "nvs09"; b_dim := 10;
  b_lo := (repeat 3 10)%Q;
  b_up := (repeat 9 10)%Q;
  b_type := [TI; TI; TI; TI; TI; TI; TI; TI; TI; TI];
  b_opt := ([9; 9; 9; 9; 9; 9; 9; 9; 9; 9])%Q;
  b_val := (-43134336918035#1000000000000)%Q;
  b_f := nvs09_f_eval |}.

(** src/rbfopt/rbfopt_test_functions.py:1201-1239, [nvs14.evaluate] at 1207-1232. *)
Definition nvs14_f_eval (x : nat -> R) : option R :=
  Some ((53578547 / 10000000) * x.[2] ^ 2 + (8356891 / 10000000) * x.[0] * x.[4] + (37293239 /
      1000000) * x.[0] - (40792141 / 1000) + (0 + 1000 * Rmax (0) (- ((56858 / 10000000) * x.[1] *
      x.[4] + (6262 / 10000000) * x.[0] * x.[3] - (22053 / 10000000) * x.[2] * x.[4] + (85334407 /
      1000000))) + 1000 * Rmax (0) ((56858 / 10000000) * x.[1] * x.[4] + (6262 / 10000000) * x.[0] *
      x.[3] - (22053 / 10000000) * x.[2] * x.[4] + (85334407 / 1000000) - 92) + 1000 * Rmax (0) (-
      ((71317 / 10000000) * x.[1] * x.[4] + (29955 / 10000000) * x.[0] * x.[1] + (21813 / 10000000)
      * x.[2] ^ 2 + (8051249 / 100000)) + 90) + 1000 * Rmax (0) ((71317 / 10000000) * x.[1] * x.[4]
      + (29955 / 10000000) * x.[0] * x.[1] + (21813 / 10000000) * x.[2] ^ 2 + (8051249 / 100000) -
      110) + 1000 * Rmax (0) (- ((47026 / 10000000) * x.[2] * x.[4] + (12547 / 10000000) * x.[0] *
      x.[2] + (19085 / 10000000) * x.[2] * x.[3] + (9300961 / 1000000)) + 20) + 1000 * Rmax (0)
      ((47026 / 10000000) * x.[2] * x.[4] + (12547 / 10000000) * x.[0] * x.[2] + (19085 / 10000000)
      * x.[2] * x.[3] + (9300961 / 1000000) - 25))).
Definition nvs14 : bench := {|
  b_name := "nvs14"; b_dim := 5;
  b_lo := (repeat 0 5)%Q;
  b_up := (repeat 200 5)%Q;
  b_type := [TI; TI; TI; TI; TI];
  b_opt := ([0; 7; 9; 175; 200])%Q;
  b_val := (-403581547693#10000000)%Q;
  b_f := nvs14_f_eval |}.

(** src/rbfopt/rbfopt_test_functions.py:1243-1265, [nvs15.evaluate] at 1249-1258. *)
Definition nvs15_f_eval (x : nat -> R) : option R :=
  Some (2 * x.[0] ^ 2 - 8 * x.[0] + 2 * x.[1] ^ 2 - 6 * x.[1] + x.[2] ^ 2 - 4 * x.[2] + 2 * x.[0] *
      x.[1] + 2 * x.[0] * x.[2] + 9 + (0 + 10 * Rmax (0) (- (- x.[0] - x.[1] - 2 * x.[2] + 3)))).
Definition nvs15 : bench := {|
  b_name := "nvs15"; b_dim := 3;
  b_lo := (repeat 0 3)%Q;
  b_up := (repeat 200 3)%Q;
  b_type := [TI; TI; TI];
  b_opt := ([2; 0; 0])%Q;
  b_val := (1)%Q;
  b_f := nvs15_f_eval |}.

(** src/rbfopt/rbfopt_test_functions.py:1269-1288, [nvs16.evaluate] at 1275-1281. *)
Definition nvs16_f_eval (x : nat -> R) : option R :=
  Some (((15 / 10) - x.[0] * (1 - x.[1])) ^ 2 + ((225 / 100) - x.[0] * (1 - x.[1] ^ 2)) ^ 2 + ((2625 /
      1000) - x.[0] * (1 - x.[1] ^ 3)) ^ 2).
Definition nvs16 : bench := {|
  b_name := "nvs16"; b_dim := 2;
  b_lo := ([0; 0])%Q;
  b_up := ([200; 200])%Q;
  b_type := [TI; TI];
  b_opt := ([2; 0])%Q;
  b_val := (703125#1000000)%Q;
  b_f := nvs16_f_eval |}.

(** src/rbfopt/rbfopt_test_functions.py:1292-1312, [prob03.evaluate] at 1298-1305. *)
Definition prob03_f_eval (x : nat -> R) : option R :=
  Some (3 * x.[0] + 2 * x.[1] + 10 * Rmax (0) (- (x.[0] * x.[1] - (35 / 10)))).
Definition prob03 : bench := {|
  b_name := "prob03"; b_dim := 2;
  b_lo := ([1; 1])%Q;
  b_up := ([5; 5])%Q;
  b_type := [TI; TI];
  b_opt := ([2; 2])%Q;
  b_val := (10)%Q;
  b_f := prob03_f_eval |}.

(** src/rbfopt/rbfopt_test_functions.py:1316-1342, [sporttournament06.evaluate] at 1322-1334. *)
Definition sporttournament06_f_eval (x : nat -> R) : option R :=
  Some (2 * x.[0] * x.[2] - 2 * x.[0] + 2 * x.[2] + 2 * x.[0] * x.[6] - 2 * x.[6] + 2 * x.[1] * x.[4]
      - 2 * x.[1] - 2 * x.[4] + 2 * x.[1] * x.[9] - 4 * x.[9] - 2 * x.[2] * x.[3] + 2 * x.[3] - 2 *
      x.[2] * x.[11] - 2 * x.[2] * x.[13] - 2 * x.[3] * x.[4] + 2 * x.[3] * x.[8] - 2 * x.[8] - 2 *
      x.[3] * x.[14] + 2 * x.[4] * x.[5] - 2 * x.[5] + 2 * x.[4] * x.[7] - 2 * x.[7] + 2 * x.[5] *
      x.[8] - 2 * x.[6] * x.[7] + 2 * x.[6] * x.[11] + 2 * x.[6] * x.[12] + 2 * x.[7] * x.[9] + 2 *
      x.[7] * x.[14] + 2 * x.[8] * x.[10] - 2 * x.[10] - 2 * x.[8] * x.[11] + 2 * x.[9] * x.[10] + 2
      * x.[9] * x.[11] - 2 * x.[12] * x.[14] + 2 * x.[13] * x.[14]).
Definition sporttournament06 : bench := {|
  b_name := "sporttournament06"; b_dim := 15;
  b_lo := (repeat 0 15)%Q;
  b_up := (repeat 1 15)%Q;
  b_type := [TI; TI; TI; TI; TI; TI; TI; TI; TI; TI; TI; TI; TI; TI; TI];
  b_opt := ([0; 1; 1; 1; 0; 1; 1; 1; 0; 0; 1; 0; 0; 1; 0])%Q;
  b_val := ((-12))%Q;
  b_f := sporttournament06_f_eval |}.

(** src/rbfopt/rbfopt_test_functions.py:1346-1369, [st_miqp1.evaluate] at 1352-1362. *)
Definition st_miqp1_f_eval (x : nat -> R) : option R :=
  Some (50 * x.[0] * x.[0] + 42 * x.[0] + 50 * x.[1] * x.[1] + 44 * x.[1] + 50 * x.[2] * x.[2] + 45 *
      x.[2] + 50 * x.[3] * x.[3] + 47 * x.[3] + 50 * x.[4] * x.[4] + (475 / 10) * x.[4] + 100 * Rmax
      (0) (- (20 * x.[0] + 12 * x.[1] + 11 * x.[2] + 7 * x.[3] + 4 * x.[4] - 40))).
Definition st_miqp1 : bench := {|
  b_name := "st_miqp1"; b_dim := 5;
  b_lo := (repeat 0 5)%Q;
  b_up := (repeat 1 5)%Q;
  b_type := [TI; TI; TI; TI; TI];
  b_opt := ([1; 1; 1; 0; 0])%Q;
  b_val := (281)%Q;
  b_f := st_miqp1_f_eval |}.

(** src/rbfopt/rbfopt_test_functions.py:1373-1393, [st_miqp3.evaluate] at 1379-1386. *)
Definition st_miqp3_f_eval (x : nat -> R) : option R :=
  Some (6 * x.[0] * x.[0] - 3 * x.[1] + 10 * Rmax (0) (- (4 * x.[0] - x.[1]))).
Definition st_miqp3 : bench := {|
  b_name := "st_miqp3"; b_dim := 2;
  b_lo := ([0; 0])%Q;
  b_up := ([3; 50])%Q;
  b_type := [TI; TI];
  b_opt := ([1; 4])%Q;
  b_val := ((-6))%Q;
  b_f := st_miqp3_f_eval |}.

(** src/rbfopt/rbfopt_test_functions.py:1397-1419, [st_test1.evaluate] at 1403-1412. *)
Definition st_test1_f_eval (x : nat -> R) : option R :=
  Some (50 * x.[0] * x.[0] + 42 * x.[0] + 50 * x.[1] * x.[1] - 44 * x.[1] + 50 * x.[3] * x.[3] - 47 *
      x.[3] + 50 * x.[4] * x.[4] - (475 / 10) * x.[4] + 45 * x.[2] + 10 * Rmax (0) (- ((- 20) *
      x.[0] - 12 * x.[1] - 11 * x.[2] - 7 * x.[3] - 4 * x.[4] + 40))).
Definition st_test1 : bench := {|
  b_name := "st_test1"; b_dim := 5;
  b_lo := (repeat 0 5)%Q;
  b_up := (repeat 1 5)%Q;
  b_type := [TI; TI; TI; TI; TI];
  b_opt := ([0; 0; 0; 0; 0])%Q;
  b_val := (0)%Q;
  b_f := st_test1_f_eval |}.

(** src/rbfopt/rbfopt_test_functions.py:1423-1515, [schoen_6_1_int.evaluate] at 1431-1448. *)
Definition schoen_6_1_int_f_eval (x : nat -> R) : option R :=
  schoen schoen_6_1_int_z schoen_6_1_int_f 6 10 x.
Definition schoen_6_1_int : bench := {|
  b_name := "schoen_6_1_int"; b_dim := 6;
  b_lo := (repeat 0 6)%Q;
  b_up := (repeat 10 6)%Q;
  b_type := [TI; TI; TI; TI; TR; TR];
  b_opt := ([4; 6; 1; 4; 637412#100000; 204038#100000])%Q;
  b_val := ((-1000))%Q;
  b_f := schoen_6_1_int_f_eval |}.

(** src/rbfopt/rbfopt_test_functions.py:1519-1611, [schoen_6_2_int.evaluate] at 1527-1544. *)
Definition schoen_6_2_int_f_eval (x : nat -> R) : option R :=
  schoen schoen_6_2_int_z schoen_6_2_int_f 6 10 x.
Definition schoen_6_2_int : bench := {|
  b_name := "schoen_6_2_int"; b_dim := 6;
  b_lo := (repeat 0 6)%Q;
  b_up := (repeat 10 6)%Q;
  b_type := [TI; TI; TI; TI; TR; TR];
  b_opt := ([3; 7; 4; 1; 258563#100000; 932004#100000])%Q;
  b_val := ((-1000))%Q;
  b_f := schoen_6_2_int_f_eval |}.

(** src/rbfopt/rbfopt_test_functions.py:1615-1758, [schoen_10_1_int.evaluate] at 1623-1640. *)
Definition schoen_10_1_int_f_eval (x : nat -> R) : option R :=
  schoen schoen_10_1_int_z schoen_10_1_int_f 10 10 x.
Definition schoen_10_1_int : bench := {|
  b_name := "schoen_10_1_int"; b_dim := 10;
  b_lo := (repeat 0 10)%Q;
  b_up := (repeat 10 10)%Q;
  b_type := [TI; TI; TI; TR; TR; TI; TI; TI; TR; TR];
  b_opt := ([6; 7; 0; 3555#1000; 2947#1000; 3; 5; 5; 759223#100000; 508432#100000])%Q;
  b_val := ((-1000))%Q;
  b_f := schoen_10_1_int_f_eval |}.

(** src/rbfopt/rbfopt_test_functions.py:1762-1905, [schoen_10_2_int.evaluate] at 1770-1787. *)
Definition schoen_10_2_int_f_eval (x : nat -> R) : option R :=
  schoen schoen_10_2_int_z schoen_10_2_int_f 10 10 x.
Definition schoen_10_2_int : bench := {|
  b_name := "schoen_10_2_int"; b_dim := 10;
  b_lo := (repeat 0 10)%Q;
  b_up := (repeat 10 10)%Q;
  b_type := [TI; TI; TI; TR; TR; TI; TI; TI; TR; TR];
  b_opt := ([0; 6; 8; 677718#100000; 961189#100000; 2; 8; 8; 52497#10000; 815489#100000])%Q;
  b_val := ((-1000))%Q;
  b_f := schoen_10_2_int_f_eval |}.

(** src/rbfopt/rbfopt_test_functions.py:1910-1938, [branin_cat.evaluate] at 1916-1929. *)
Definition branin_cat_f_eval (x : nat -> R) : option R :=
  let fn := pick x.[2] [(0%Z, fun y => cos (y)); (1%Z, fun y => sin (y)); (2%Z, fun y => cos (y + PI /
      4) ^ 2); (3%Z, fun y => sin (y + PI / 4) ^ 2)] in
  guard [OneOf x.[2] [0; 1; 2; 3]%Z]
    ((x.[1] - (51 / 10) / (4 * PI * PI) * x.[0] * x.[0] + 5 / PI * x.[0] - 6) ^ 2 + 10 * (1 - 1 / (8
      * PI)) * fn (x.[0]) + 10).
Definition branin_cat : bench := {|
  b_name := "branin_cat"; b_dim := 3;
  b_lo := ([(-5); 0; 0])%Q;
  b_up := ([10; 15; 3])%Q;
  b_type := [TR; TR; TC];
  b_opt := ([942477796#100000000; 247499998#100000000; 0])%Q;
  b_val := (397887357729739#1000000000000000)%Q;
  b_f := branin_cat_f_eval |}.

(** src/rbfopt/rbfopt_test_functions.py:1942-1974, [hartman3_cat.evaluate] at 1948-1955. *)
Definition hartman3_cat_f_eval (x : nat -> R) : option R :=
  guard [Index (x.[3]) 5]
    (- rsum 4 (fun i => entry (row hartman3_cat_c x.[3]) i * exp (- rsum 3 (fun j => entry (nth j
      hartman3_cat_a []) i * (x.[j] - entry (nth j hartman3_cat_p []) i) ^ 2)))).
Definition hartman3_cat : bench := {|
  b_name := "hartman3_cat"; b_dim := 4;
  b_lo := (repeat 0 4)%Q;
  b_up := ([1; 1; 1; 4])%Q;
  b_type := [TR; TR; TR; TC];
  b_opt := ([155995#1000000; 536521#1000000; 843994#1000000; 3])%Q;
  b_val := (-4822787424687719#1000000000000000)%Q;
  b_f := hartman3_cat_f_eval |}.

(** src/rbfopt/rbfopt_test_functions.py:1978-2017, [hartman6_cat.evaluate] at 1984-1991. *)
Definition hartman6_cat_f_eval (x : nat -> R) : option R :=
  guard [Index (x.[0]) 5]
    (- rsum 4 (fun i => entry (row hartman6_cat_c x.[0]) i * exp (- rsum 6 (fun j => entry (nth j
      hartman6_cat_a []) i * (x.[(j + 1)] - entry (nth j hartman6_cat_p []) i) ^ 2)))).
Definition hartman6_cat : bench := {|
  b_name := "hartman6_cat"; b_dim := 7;
  b_lo := (repeat 0 7)%Q;
  b_up := ([4; 1; 1; 1; 1; 1; 1])%Q;
  b_type := [TC; TR; TR; TR; TR; TR; TR];
  b_opt := ([2; 177401#1000000; 153512#1000000; 516698#1000000; 256499#1000000; 323092#1000000; 646352#1000000])%Q;
  b_val := (-396231691936822#100000000000000)%Q;
  b_f := hartman6_cat_f_eval |}.

(** src/rbfopt/rbfopt_test_functions.py:2021-2056, [ex8_1_1_cat.evaluate] at 2027-2049. *)
Definition ex8_1_1_cat_f_eval (x : nat -> R) : option R :=
  let fun1 := pick x.[2] [(0%Z, fun y => sin (y)); (1%Z, fun y => cos (y)); (2%Z, fun y => cos (y + PI
      / 4) ^ 2); (3%Z, fun y => sin (y + PI / 4) ^ 2)] in
  let fun2 := pick x.[3] [(0%Z, fun y => sin (y + PI / 4) ^ 2); (1%Z, fun y => sin (y)); (2%Z, fun y
      => cos (y + PI / 4) ^ 2); (3%Z, fun y => cos (y))] in
  guard [OneOf x.[2] [0; 1; 2; 3]%Z; OneOf x.[3] [0; 1; 2; 3]%Z; NonZero (x.[1] ^ 2 + 1)]
    (fun1 (x.[0]) * fun2 (x.[1]) - x.[0] / (x.[1] ^ 2 + 1)).
Definition ex8_1_1_cat : bench := {|
  b_name := "ex8_1_1_cat"; b_dim := 4;
  b_lo := ([(-1); (-1); 0; 0])%Q;
  b_up := ([2; 1; 3; 3])%Q;
  b_type := [TR; TR; TC; TC];
  b_opt := ([2; -3#10000; 1; 3])%Q;
  b_val := (-24161466378205514#10000000000000000)%Q;
  b_f := ex8_1_1_cat_f_eval |}.

(** src/rbfopt/rbfopt_test_functions.py:2060-2231, [schoen_10_1_cat.evaluate] at 2066-2113. *)
Definition schoen_10_1_cat_f_eval (x : nat -> R) : option R :=
  schoen_cat schoen_10_1_cat_z schoen_10_1_cat_f 10 x.
Definition schoen_10_1_cat : bench := {|
  b_name := "schoen_10_1_cat"; b_dim := 12;
  b_lo := (repeat 0 12)%Q;
  b_up := ([3; 3; 1; 1; 1; 1; 1; 1; 1; 1; 1; 1])%Q;
  b_type := [TC; TC; TR; TR; TR; TR; TR; TR; TR; TR; TR; TR];
  b_opt := ([0; 2; 914871#1000000; 76523#100000; 139426#1000000; 617466#1000000; 823635#1000000; 794003#1000000;
    801171#1000000; 568811#1000000; 279434#1000000; 540422#1000000])%Q;
  b_val := ((-1000))%Q;
  b_f := schoen_10_1_cat_f_eval |}.

(** src/rbfopt/rbfopt_test_functions.py:2236-2407, [schoen_10_2_cat.evaluate] at 2242-2289. *)
Definition schoen_10_2_cat_f_eval (x : nat -> R) : option R :=
  schoen_cat schoen_10_2_cat_z schoen_10_2_cat_f 10 x.
Definition schoen_10_2_cat : bench := {|
  b_name := "schoen_10_2_cat"; b_dim := 12;
  b_lo := (repeat 0 12)%Q;
  b_up := ([3; 3; 1; 1; 1; 1; 1; 1; 1; 1; 1; 1])%Q;
  b_type := [TC; TC; TR; TR; TR; TR; TR; TR; TR; TR; TR; TR];
  b_opt := ([0; 2; 131461#1000000; 965235#1000000; 46134#1000000; 983011#1000000; 719813#1000000;
    827542#1000000; 662422#1000000; 570546#1000000; 578707#1000000; 13264#1000000])%Q;
  b_val := ((-1000))%Q;
  b_f := schoen_10_2_cat_f_eval |}.

(** src/rbfopt/rbfopt_test_functions.py:2411-2443, [gear4_cat.evaluate] at 2417-2436. *)
Definition gear4_cat_f_eval (x : nat -> R) : option R :=
  guard [NonZero (x.[2] * x.[3])]
    ((- 1000000) * x.[0] * x.[1] / (x.[2] * x.[3]) + 2 * x.[4] + (14427932477276 / 100000000) + 10 *
      Rmax (0) (- ((- 1000000) * x.[0] * x.[1] / (x.[2] * x.[3]) + x.[4] + (14427932477276 /
      100000000)))).
Definition gear4_cat : bench := {|
  b_name := "gear4_cat"; b_dim := 6;
  b_lo := ([12; 12; 12; 12; 0; 0])%Q;
  b_up := ([60; 60; 60; 60; 100; 4])%Q;
  b_type := [TI; TI; TI; TI; TR; TC];
  b_opt := ([19; 16; 43; 49; 164342847396619#100000000000000; 1])%Q;
  b_val := (16434284739#10000000000)%Q;
  b_f := gear4_cat_f_eval |}.

(** src/rbfopt/rbfopt_test_functions.py:2447-2477, [nvs07_cat.evaluate] at 2453-2470. *)
Definition nvs07_cat_f_eval (x : nat -> R) : option R :=
  let fn := pick x.[3] [(2%Z, fun y => (y - 1) ^ 3); (3%Z, fun y => exp (y / 50)); (4%Z, fun y => y ^
      2)] in
  guard [OneOf x.[3] [2; 3; 4]%Z]
    (2 * fn (x.[1]) + x.[0] + 5 * x.[2] + (0 + 10 * Rmax (0) (- (fn (x.[2]) * x.[1] + 5 * x.[2] + 3
      * x.[0] - 10)) + 10 * Rmax (0) (- (x.[0] - x.[2] - (266 / 100))))).
Definition nvs07_cat : bench := {|
  b_name := "nvs07_cat"; b_dim := 4;
  b_lo := ([0; 0; 0; 2])%Q;
  b_up := ([200; 200; 200; 4])%Q;
  b_type := [TI; TI; TI; TC];
  b_opt := ([4; 0; 0; 2])%Q;
  b_val := (2)%Q;
  b_f := nvs07_cat_f_eval |}.

(** src/rbfopt/rbfopt_test_functions.py:2482-2520, [nvs09_cat.evaluate] at 2488-2513. *)
Definition nvs09_cat_f_eval (x : nat -> R) : option R :=
  let fn := pick x.[10] [(0%Z, fun y => sqrt (y)); (1%Z, fun y => Rabs (y)); (2%Z, fun y => 1 / (y -
      (9 / 10))); (3%Z, fun y => ln (y)); (4%Z, fun y => y - 2)] in
  guard ([OneOf x.[10] [0; 1; 2; 3; 4]%Z; NonNeg (x.[0] * x.[1] * x.[2] * x.[3] * x.[4] * x.[5] *
      x.[6] * x.[7] * x.[8] * x.[9])] ++ flat_map (fun i => flat_map (fun y =>
      [When x.[10] 0 (NonNeg y); When x.[10] 2 (NonZero (y - 9 / 10)); When x.[10] 3 (Pos y)])
      [x.[i] - 2; 10 - x.[i]]) (seq 0 10))%list
    (fn (x.[0] - 2) ^ 2 + fn (10 - x.[0]) ^ 2 + fn (x.[1] - 2) ^ 2 + fn (10 - x.[1]) ^ 2 + fn (x.[2]
      - 2) ^ 2 + fn (10 - x.[2]) ^ 2 + fn (x.[3] - 2) ^ 2 + fn (10 - x.[3]) ^ 2 + fn (x.[4] - 2) ^ 2
      + fn (10 - x.[4]) ^ 2 + fn (x.[5] - 2) ^ 2 + fn (10 - x.[5]) ^ 2 + fn (x.[6] - 2) ^ 2 + fn (10
      - x.[6]) ^ 2 + fn (x.[7] - 2) ^ 2 + fn (10 - x.[7]) ^ 2 + fn (x.[8] - 2) ^ 2 + fn (10 - x.[8])
      ^ 2 + fn (x.[9] - 2) ^ 2 + fn (10 - x.[9]) ^ 2 - (rpow (x.[0] * x.[1] * x.[2] * x.[3] * x.[4]
      * x.[5] * x.[6] * x.[7] * x.[8] * x.[9]) (2 / 10))).
Definition nvs09_cat : bench := {|
  b_name := "nvs09_cat"; b_dim := 11;
  b_lo := ([3; 3; 3; 3; 3; 3; 3; 3; 3; 3; 0])%Q;
  b_up := ([9; 9; 9; 9; 9; 9; 9; 9; 9; 9; 4])%Q;
  b_type := [TI; TI; TI; TI; TI; TI; TI; TI; TI; TI; TC];
  b_opt := ([8; 8; 8; 8; 7; 8; 7; 8; 8; 8; 2])%Q;
  b_val := (-53179649471788274#1000000000000000)%Q;
  b_f := nvs09_cat_f_eval |}.

(** src/rbfopt/rbfopt_test_functions.py:2524-2556, [st_miqp1_cat.evaluate] at 2530-2541. *)
Definition st_miqp1_cat_f_eval (x : nat -> R) : option R :=
  guard [Index (x.[0]) 7]
    (50 * x.[1] * x.[1] + 42 * x.[1] + 50 * x.[2] * x.[2] + 44 * x.[2] + 50 * x.[3] * x.[3] + 45 *
      x.[3] + 50 * x.[4] * x.[4] + 47 * x.[4] + 50 * x.[5] * x.[5] + (475 / 10) * x.[5] + 100 * Rmax
      (0) (- rsum 5 (fun j => entry (row st_miqp1_cat_c x.[0]) j * x.[(j + 1)]) + last_entry (row
      st_miqp1_cat_c x.[0]))).
Definition st_miqp1_cat : bench := {|
  b_name := "st_miqp1_cat"; b_dim := 6;
  b_lo := (repeat 0 6)%Q;
  b_up := ([5; 1; 1; 1; 1; 1])%Q;
  b_type := [TC; TI; TI; TI; TI; TI];
  b_opt := ([4; 1; 1; 0; 0; 0])%Q;
  b_val := (186)%Q;
  b_f := st_miqp1_cat_f_eval |}.

(** src/rbfopt/rbfopt_test_functions.py:2561-2595, [schaeffer_f7_12_1_int_cat.evaluate] at 2567-2586. *)
Definition schaeffer_f7_12_1_int_cat_opt : list Q :=
  [-3432567#100000; -3498896#100000; 769262#100000; 303388#10000; -4824371#100000; 2318355#100000;
   2493374#100000; 3207436#100000; 4686153#100000; 4; 25; (-16); 1]%Q.
Definition schaeffer_f7_12_1_int_cat_f_eval (x : nat -> R) : option R :=
  schaeffer_cat 2 schaeffer_f7_12_1_int_cat_opt (- 10) x.
Definition schaeffer_f7_12_1_int_cat : bench := {|
  b_name := "schaeffer_f7_12_1_int_cat"; b_dim := 13;
  b_lo := ([(-50); (-50); (-50); (-50); (-50); (-50); (-50); (-50); (-50); (-50); (-50); (-50); 0])%Q;
  b_up := ([50; 50; 50; 50; 50; 50; 50; 50; 50; 50; 50; 50; 3])%Q;
  b_type := [TR; TR; TR; TR; TR; TR; TR; TR; TR; TI; TI; TI; TC];
  b_opt := schaeffer_f7_12_1_int_cat_opt;
  b_val := ((-10))%Q;
  b_f := schaeffer_f7_12_1_int_cat_f_eval |}.

(** src/rbfopt/rbfopt_test_functions.py:2598-2632, [schaeffer_f7_12_2_int_cat.evaluate] at 2604-2623. *)
Definition schaeffer_f7_12_2_int_cat_opt : list Q :=
  [-8214#1000; 3069133#100000; 4826095#100000; -494219#100000; 1515357#100000; 4841#10000;
   -1354025#100000; -4078766#100000; -1602916#100000; 16; 39; (-49); 1]%Q.
Definition schaeffer_f7_12_2_int_cat_f_eval (x : nat -> R) : option R :=
  schaeffer_cat 2 schaeffer_f7_12_2_int_cat_opt (- 10) x.
Definition schaeffer_f7_12_2_int_cat : bench := {|
  b_name := "schaeffer_f7_12_2_int_cat"; b_dim := 13;
  b_lo := ([(-50); (-50); (-50); (-50); (-50); (-50); (-50); (-50); (-50); (-50); (-50); (-50); 0])%Q;
  b_up := ([50; 50; 50; 50; 50; 50; 50; 50; 50; 50; 50; 50; 3])%Q;
  b_type := [TR; TR; TR; TR; TR; TR; TR; TR; TR; TI; TI; TI; TC];
  b_opt := schaeffer_f7_12_2_int_cat_opt;
  b_val := ((-10))%Q;
  b_f := schaeffer_f7_12_2_int_cat_f_eval |}.

(** All function classes of the file, in order. *)
Definition all_benchmarks : list bench :=
  [branin; hartman3; hartman6; camel; goldsteinprice; shekel5; shekel7; shekel10; ex4_1_1; ex4_1_2;
   ex8_1_1; ex8_1_4; least; rbrock; perm_6; perm0_8; schoen_6_1; schoen_6_2; schoen_10_1; schoen_10_2;
   schaeffer_f7_12_1; schaeffer_f7_12_2; gear; gear4; nvs02; nvs03; nvs04; nvs06; nvs07; nvs09; nvs14;
   nvs15; nvs16; prob03; sporttournament06; st_miqp1; st_miqp3; st_test1; schoen_6_1_int;
   schoen_6_2_int; schoen_10_1_int; schoen_10_2_int; branin_cat; hartman3_cat; hartman6_cat;
   ex8_1_1_cat; schoen_10_1_cat; schoen_10_2_cat; gear4_cat; nvs07_cat; nvs09_cat; st_miqp1_cat;
   schaeffer_f7_12_1_int_cat; schaeffer_f7_12_2_int_cat].
