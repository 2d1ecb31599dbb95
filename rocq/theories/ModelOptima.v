(** * Further declared optima of the benchmark functions.

    Models the attribute [additional_optima] of the only two classes that have it,
    rbfopt_test_functions.py 39-40 ([branin]) and 1935-1936 ([branin_cat]).
    Definitions only. *)
From Verif Require Export ModelBench.
From Coq Require Import List QArith.
Import ListNotations.
Open Scope Q_scope.

(** 39-40. *)
Definition branin_additional : list (list Q) :=
  [[(-314159265)#100000000; 1227500000#100000000]; [314159265#100000000; 227500000#100000000]].
(** 1935-1936. *)
Definition branin_cat_additional : list (list Q) :=
  [[(-314159265)#100000000; 1227500000#100000000; 0]; [314159265#100000000; 227500000#100000000; 0]].
