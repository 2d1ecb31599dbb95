(** * The interface to the benchmark functions.

    Models rbfopt_test_interface.py: [rbfopt_test_interface] 80-105 and [main] 107-159, up to the
    creation of the optimizer.  The algorithmic options are registered by the same code as in the
    command line interface ([register_options] 32-77, identical to rbfopt_cl_interface.py 46-70) and
    are parsed by [parse] of [ModelCLI].  Definitions only.
    Simplifications: a name that is an attribute of the module test_functions without being one of
    its function classes (such as [math]) also ends in an exception, later and of another type; the
    version check of the interpreter, the random seed and the printed lines are left out. *)
From Coq Require Import Ascii.
From Verif Require Import ModelBench.
From Verif Require Export ModelCLI.
Open Scope string_scope.
Open Scope Q_scope.

(** [name.lower()] (rbfopt_test_functions.py 2651, 2771), for ASCII names. *)
Definition lower_ascii (c : ascii) : ascii :=
  let n := nat_of_ascii c in
  if (65 <=? n)%nat && (n <=? 90)%nat then ascii_of_nat (n + 32) else c.
Fixpoint lower (s : string) : string :=
  match s with
  | EmptyString => EmptyString
  | String c r => String (lower_ascii c) (lower r)
  end.
(** [getattr(thismodule, name.lower())], rbfopt_test_functions.py 2649-2653 and 2769-2773; None: the
    ValueError of line 2653. *)
Definition test_class (name : string) : option bench :=
  find (fun b => String.eqb (b_name b) (lower name)) all_benchmarks.

(** The options of the interface itself, 117-133. *)
Record test_options := mkTestOptions {
  to_name : string; to_mult : Z; to_rel : Q; to_abs : Q }.

(** The black boxes that [main] builds, 143-149. *)
Inductive test_box :=
| PlainBox (b : bench)
| EnlargedBox (b : bench) (multiplier : Z)
| NoisyBox (inner : test_box) (max_rel max_abs : Q).

(** [bb._function] (rbfopt_test_functions.py 2651, 2698, 2771). *)
Fixpoint function_of (x : test_box) : bench :=
  match x with
  | PlainBox b => b
  | EnlargedBox b _ => b
  | NoisyBox i _ _ => function_of i
  end.

Inductive terr := TUnknown | TAssert | TSettings (e : serr).
Inductive tres (A : Type) := TOk (a : A) | TFail (e : terr).
Arguments TOk {A} a.
Arguments TFail {A} e.

(** Lines 136-149. *)
Definition build_box (t : test_options) : tres test_box :=
  let noisy := negb (Qle_bool (to_rel t) 0) || negb (Qle_bool (to_abs t) 0) in
  let enlarged := (1 <? to_mult t)%Z in
  match test_class (to_name t) with
  | None => TFail TUnknown
  | Some b =>
      let bb := if enlarged then EnlargedBox b (to_mult t) else PlainBox b in
      if noisy
      then (* the assertions of rbfopt_test_functions.py 2694-2695 *)
           if Qle_bool 0 (to_rel t) && Qle_bool 0 (to_abs t)
           then TOk (NoisyBox bb (to_rel t) (to_abs t)) else TFail TAssert
      else TOk bb
  end.

(** [main] 136-159 followed by lines 96-100: the black box and the settings the optimizer is created
    with.  [opts] are the parsed algorithmic options; deleting the options of the interface (152-155)
    leaves exactly these. *)
Definition test_main (t : test_options) (opts : dict) : tres (test_box * dict) :=
  match build_box t with
  | TFail e => TFail e
  | TOk bb =>
      match from_dictionary (update "target_objval" (PNum (b_val (function_of bb))) opts) with
      | SFail e => TFail (TSettings e)
      | SOk settings => TOk (bb, settings)
      end
  end.
