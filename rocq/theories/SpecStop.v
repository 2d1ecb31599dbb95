(** * Why [optimize] stops: vocabulary of C146.
    [within_target]: the documented test, the value is at most [eps_opt] above the target, relative to the magnitude of the
    target, or absolute when the target is (nearly) zero.  [limit_reached]: one of the limits of a call that began at
    iteration [it0] and was asked to pause after [pa] iterations; [clock_ok] is the answer of the clock. *)
From Verif Require Export ModelAlg SpecAlg.
Open Scope Z_scope.
Definition within_target (c : cfg) (v : Q) : Prop :=
  ((eps_zero c <= Qabs (target_objval c))%Q -> (v <= target_objval c + eps_opt c * Qabs (target_objval c))%Q) /\
  ((Qabs (target_objval c) < eps_zero c)%Q -> (v <= target_objval c + eps_opt c)%Q).
Definition limit_reached (c : cfg) (it0 pa : Z) (s : st) (clock_ok : bool) : Prop :=
  pa <= itercount (C s) - it0 \/ max_iterations c <= itercount (C s) \/ max_evaluations c <= evalcount (C s) \/
  (exists z, search_space_size c = Some z /\ z <= evalcount (C s)) \/ max_cycles c <= cyclecount (C s) \/ clock_ok = false.
Definition target_met (c : cfg) (s : st) : Prop := exists v p, result s = Some (v, p) /\ within_target c v.
