(** * One update of the refinement data (C61, C130), in the words of the documentation. *)
From Verif Require Export SpecParallel.
Open Scope Z_scope.

(** The newest node becomes the iterate: the step was good enough ([refine_move], see C60), or the node chosen for
    replacement is the iterate itself. *)
Definition accepts_new (c : cfg) (i : inp) (s : st) : Prop :=
  refine_move c (i_model_impr i) (i_real_impr i) = true \/
  exists it, ref_iterate_index (Rf s) = Some it /\ nth_error (ref_model_set (Rf s)) (i_to_replace i) = Some it.
(** [l'] is [l] with the entry number [r] replaced by [x]. *)
Definition replaced (r x : nat) (l l' : list nat) : Prop :=
  length l' = length l /\ forall j, (j < length l)%nat -> nth j l' 0%nat = if (j =? r)%nat then x else nth j l 0%nat.
(** From [s] to [s'] the refinement data change as documented; [ends] says when the refinement ends. *)
Definition refinement_updated (c : cfg) (i : inp) (s s' : st) (ends : Prop) : Prop :=
  let nodes := node_pos (T s) in let newest := (length nodes - 1)%nat in let at_ j := nth j nodes [] in
  let ms := ref_model_set (Rf s) in
  exists rad it0 it1 r, ref_radius (Rf s) = Some rad /\ ref_iterate_index (Rf s) = Some it0 /\
    ref_radius (Rf s') = Some (new_radius c rad (i_model_impr i) (i_real_impr i)) /\
    ref_iterate_index (Rf s') = Some it1 /\
    (accepts_new c i s -> it1 = newest /\ (ms <> [] -> (r < length ms)%nat /\
       forall j, (j < length ms)%nat -> (sqdist (at_ it1) (at_ (nth j ms 0%nat)) <= sqdist (at_ it1) (at_ (nth r ms 0%nat)))%Q)) /\
    (~ accepts_new c i s -> it1 = it0 /\ r = i_to_replace i) /\
    (ends -> num_cons_refinement (Rf s') = 0 /\ ref_model_set (Rf s') = ms) /\
    (~ ends -> num_cons_refinement (Rf s') = num_cons_refinement (Rf s) + 1 /\
       let closer := i_rank_def i = true \/ (sqdist (at_ newest) (at_ it1) <= sqdist (at_ (nth r ms 0%nat)) (at_ it1))%Q in
       (closer -> replaced r newest ms (ref_model_set (Rf s'))) /\ (~ closer -> ref_model_set (Rf s') = ms)) /\
    (num_cons_refinement (Rf s') < max_consecutive_refinement c -> fmin_last_refine (Rf s') = fmin (I s)) /\
    (max_consecutive_refinement c <= num_cons_refinement (Rf s') -> fmin_last_refine (Rf s') = fmin_last_refine (Rf s)).

(** ** Planning of a refinement by the parallel optimizer *)
(** A refinement may be planned: none is under way and at most one refinement has been done per
    [refinement_frequency] iterations. *)
Definition refinement_due (c : cfg) (P : pst) : Prop :=
  busy (p_k P) = false /\ (rcount (p_k P) <= inject_Z (itercount (C (p_s P))) / inject_Z (refinement_frequency c))%Q.
(** A new refinement begins (rather than the current one being continued): there is no current one, or the smallest
    value found so far is better than that of the iterate by the fraction [eps_impr]. *)
Definition refinement_begins (c : cfg) (P : pst) : Prop :=
  let r := Rf (p_s P) in
  num_cons_refinement r = 0 \/
  exists j v f, ref_iterate_index r = Some j /\ nth_error (node_val (T (p_s P)) ++ tval (p_k P)) j = Some v /\
    fmin (I (p_s P)) = Some f /\ (f <= v - eps_impr c * Qmax 1 (Qabs v))%Q.
(** The RBF type is selected again in this pass. *)
Definition cross_validates (pc0 : pcfg) (P : pst) : Prop :=
  let c := base pc0 in let k := (length (node_pos (T (p_s P))) + length (tpos (p_k P)))%nat in
  rbf_auto pc0 = true /\ Z.of_nat (n c) + 2 < Z.of_nat k /\
  current_step (C (p_s P)) <= (if do_infstep c then 0 else 1) /\ Z.of_nat (p_cv P) < max_cross_validations pc0.
(** Effect of planning a refinement: a search is sent to the workers, for a new refinement ([begins]) around the best
    node, with the given nodes and radius, or for the current one; unless the computation of its linear model failed. *)
Definition planned (c : cfg) (i : inp) (P P' : pst) (begins : Prop) : Prop :=
  let r := Rf (p_s P) in let r' := Rf (p_s P') in
  num_cons_refinement r' = num_cons_refinement r /\ iter_last_refine r' = iter_last_refine r /\ fmin_last_refine r' = fmin_last_refine r /\
  (begins -> ref_model_set r' = i_ref_set i /\ ref_radius r' = Some (i_ref_radius i) /\ ref_iterate_index r' = Some (fmin_index (I (p_s P)))) /\
  (~ begins -> r' = r) /\
  T (p_s P') = T (p_s P) /\ I (p_s P') = I (p_s P) /\ pend (p_k P') = pend (p_k P) /\ rcount (p_k P') = rcount (p_k P) /\
  (i_ref_ok i = true -> busy (p_k P') = true /\ C (p_s P') = C (p_s P) /\
     exists bad, srch (p_k P') = srch (p_k P) ++ [mkStask (noisy_mode (C (p_s P))) SRefine bad]) /\
  (i_ref_ok i = false -> busy (p_k P') = busy (p_k P) /\ srch (p_k P') = srch (p_k P) /\ C (p_s P') = advance c (C (p_s P))).
(** Effect of planning any other search. *)
Definition searched (c : cfg) (P P' : pst) (bad : bool) : Prop :=
  let z := current_step (C (p_s P)) in
  let id := if z =? 0 then SInf else if z =? num_global_searches c + 1 then SLocal else SGlobal in
  T (p_s P') = T (p_s P) /\ I (p_s P') = I (p_s P) /\ Rf (p_s P') = Rf (p_s P) /\ C (p_s P') = advance c (C (p_s P)) /\
  pend (p_k P') = pend (p_k P) /\ busy (p_k P') = busy (p_k P) /\ rcount (p_k P') = rcount (p_k P) /\
  srch (p_k P') = srch (p_k P) ++ [mkStask (noisy_mode (C (p_s P))) id bad].
