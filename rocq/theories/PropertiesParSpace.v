(** * Finite search spaces in parallel mode: C157. Vocabulary: [SpecSpace], [SpecParSpace]. *)
From Coq Require Import Lia Lqa.
From Verif Require Import AlgGlue ProblemProofs ProblemGlue SpaceProofs SpaceRun PropertiesSpace PropertiesGA PropertiesProblem ParSpace ParFinite WitnessAlg WitnessPar SpecParSpace.
Notation same_point := SpecCategorical.same_point.
Open Scope string_scope.
Open Scope Q_scope.

(** ** C157 *)
(** No two evaluations of a parallel run are at the same point: there are never more of them than points; and when a call
    ends with as many, every point has been evaluated and recorded, and the value returned is the minimum. *)
Theorem C157_exhaustive : forall args d eps md b u pc0 (ok : pin -> Prop) m P z,
  construct args = SOk d -> setting d "eps_zero" eps -> setting d "min_dist" md -> 0 < eps <= 1 -> eps <= md -> md + 2 * eps < 1 ->
  scaling_safe d eps b -> ordered_bounds eps b -> free_vars eps b <> [] -> valued_points eps b u -> all_discrete eps b ->
  make_algorithm d b false u = COk (base pc0) -> (forall q, ok q -> distinct_pins eps b (init_node_pos (base pc0)) q) ->
  cat_vars eps b = [] -> preach pc0 ok m P -> no_error m -> number_of_points eps b z ->
  pairwise_distinct (sent (p_log P)) /\
  (Z.of_nat (List.length (sent (p_log P))) <= z)%Z /\ (evalcount (C (p_s P)) <= z)%Z /\
  (m = PcDone -> evalcount (C (p_s P)) = z -> forall x, declared_free eps b x -> exists k p w,
     In (PRow (Some k) p w) (p_log P) /\ In (PAnswer k w) (p_log P) /\
     same_point x (values_at (free_vars eps b) (bb_point (construct_problem eps b) p)) /\
     forall v q, result (p_s P) = Some (v, q) -> v <= w).
Proof.
  intros args d eps md b u pc0 ok m P z HC HE HMD He Hem Hm1 HSc Hord HF HU HD HM HOK HCat HR HN (L & N & LZ & HL).
  pose proof (as_wf _ _ _ _ _ _ (make_assembled _ _ _ _ _ _ HM HE)) as W.
  pose proof (size_eq d eps b u (base pc0) HE Hord HD HM) as SZ.
  assert (EL : Z.of_nat (List.length (grid (box_lower (construct_problem eps b)) (box_upper (construct_problem eps b)))) = z).
  { rewrite <- LZ. f_equal. apply Nat.le_antisymm; apply NoDup_incl_length; try apply nodup_grid; try exact N;
      intros v Hv; [apply HL; apply (grid_declared eps b W Hord HD HCat)|apply (grid_declared eps b W Hord HD HCat); apply HL]; exact Hv. }
  rewrite EL in SZ.
  destruct (par_never_exceeds d eps md b u pc0 ok HE HMD He Hem Hm1 HSc Hord HF HU HD HM HOK m P z HR HN SZ) as (E1 & E2).
  split; [|split; [exact E2|split; [exact E1|]]].
  - destruct (par_floors d eps md b u pc0 ok HE HMD He Hem Hm1 HSc Hord HF HU HD HM HOK m P HR HN) as (ND & _).
    intros i j Hij Hs. assert (X : nth i (map floors (sent (p_log P))) (floors []) = nth j (map floors (sent (p_log P))) (floors [])).
    { rewrite !map_nth. destruct Hs as (Hl & Hs). apply nth_ext with (d := 0%Z) (d' := 0%Z); [unfold floors; rewrite !map_length; exact Hl|].
      intros k Hk. unfold floors in Hk |- *. rewrite map_length in Hk. change 0%Z with (Qfloor 0). rewrite !map_nth. apply Qfloor_comp. apply Hs. exact Hk. }
    rewrite (NoDup_nth _ (floors [])) in ND. unfold point in *. specialize (ND i j). rewrite map_length in ND. specialize (ND ltac:(lia) ltac:(lia) X). lia.
  - intros -> HQ x Hx.
    destruct (par_exhausted d eps md b u pc0 ok HE HMD He Hem Hm1 HSc Hord HF HU HD HM HOK PcDone P z HCat HR HN SZ HQ x Hx) as (p & H1 & H2).
    destruct (par_recorded d eps md b u pc0 ok HE HMD He Hem Hm1 HSc Hord HF HU HD HM HOK P p HR H1) as (k & w & W1 & W2 & W3).
    exists k, p, w. auto.
Qed.
Print Assumptions C157_exhaustive.
(** At the head of the loop the run stops as soon as that many evaluations have been sent. *)
Theorem C157_stops : forall pc0 q P m' P' z, search_space_size (base pc0) = Some z -> (z <= evalcount (C (p_s P)))%Z ->
  pstep pc0 q PcHead P = (m', P') -> m' = PcFinal /\ p_log P' = p_log P.
Proof.
  intros pc0 q P m' P' z HZ HL H. cbn [pstep] in H.
  assert (E : loop_cond (base pc0) (p_s P) (lc (p_k P)) (i_clock_ok (q_inp q)) = false).
  { unfold loop_cond. cbv zeta. rewrite HZ. rewrite (proj2 (Z.ltb_ge _ _) HL). rewrite !Bool.andb_false_r. reflexivity. }
  rewrite E in H. injection H as <- <-. auto.
Qed.
Print Assumptions C157_stops.
(** With a categorical variable the size counts the 0/1 vectors of its encoding, and is never reached. *)
Theorem C157_categorical_refuted : forall args d eps md b u pc0 (ok : pin -> Prop) m P,
  construct args = SOk d -> setting d "eps_zero" eps -> setting d "min_dist" md -> 0 < eps <= 1 -> eps <= md -> md + 2 * eps < 1 ->
  scaling_safe d eps b -> ordered_bounds eps b -> free_vars eps b <> [] -> valued_points eps b u -> all_discrete eps b ->
  make_algorithm d b false u = COk (base pc0) -> (forall q, ok q -> distinct_pins eps b (init_node_pos (base pc0)) q) ->
  cat_vars eps b <> [] -> preach pc0 ok m P -> no_error m ->
  exists z, search_space_size (base pc0) = Some z /\ (evalcount (C (p_s P)) < z)%Z.
Proof.
  intros args d eps md b u pc0 ok m P HC HE HMD He Hem Hm1 HSc Hord HF HU HD HM HOK HCat HR HN.
  pose proof (size_eq d eps b u (base pc0) HE Hord HD HM) as SZ. eexists. split; [exact SZ|].
  exact (par_never_reached d eps md b u pc0 ok HE HMD He Hem Hm1 HSc Hord HF HU HD HM HOK m P _ HCat HR HN SZ).
Qed.
Print Assumptions C157_categorical_refuted.

(** One integer variable in [0, 2], two workers: the third evaluation ends the run at the optimum. *)
Definition pc9 : pcfg := mkPcfg c9 true 2.
Definition q9 (v : Q) (j : option nat) : pin := mkPin (with_samples (Some [[0]; [2]]) (fun j => inject_Z (5 + Z.of_nat j)) (prop [1] v (nz 0))) j (APoint (Some [1]) false) 0.
Definition qs9 : list pin := [q9 5 (Some 0%nat); q9 6 (Some 0%nat)] ++ repeat (q9 3 (Some 0%nat)) 20.
Notation run9p := (pcall pc9 (q9 5 None) 1000 qs9).
Lemma q9_distinct v j : distinct_pins ga_eps bb9 (init_node_pos c9) (q9 v j).
Proof.
  destruct i9_distinct as ((A & B) & D). split; [split|].
  - exact A.
  - intros x [H|[(ind & H)|(adj & H)]]; try discriminate.
    apply B. cbn [q9 q_ans] in H. cbn [i9 with_samples prop i_prop]. congruence.
  - intros pts H. split; [exact (D pts H)|]. intros p y _ Hy. change (init_node_pos c9) with ([] : list point) in Hy. destruct Hy.
Qed.
Example C157_case : construct [("eps_zero", PNum ga_eps)] = SOk d5 /\ setting d5 "eps_zero" ga_eps /\ setting d5 "min_dist" (1 # 100000) /\
  0 < ga_eps <= 1 /\ ga_eps <= 1 # 100000 /\ (1 # 100000) + 2 * ga_eps < 1 /\ scaling_safe d5 ga_eps bb9 /\ ordered_bounds ga_eps bb9 /\ free_vars ga_eps bb9 <> [] /\
  valued_points ga_eps bb9 u9 /\ all_discrete ga_eps bb9 /\ make_algorithm d5 bb9 false u9 = COk (base pc9) /\
  cat_vars ga_eps bb9 = [] /\ preach pc9 (distinct_pins ga_eps bb9 (init_node_pos (base pc9))) (fst run9p) (snd run9p) /\
  number_of_points ga_eps bb9 3 /\ fst run9p = PcDone /\ evalcount (C (p_s (snd run9p))) = 3%Z /\
  result (p_s (snd run9p)) = Some (3, [1]) /\ sent (p_log (snd run9p)) = [[0]; [2]; [1]].
Proof.
  destruct C134_case as (A1 & A2 & A3 & A4 & A5 & A6 & A7 & A8 & A9 & A10 & A11 & _ & A12 & _ & A13 & _).
  split; [exact A1|]. split; [exact A2|]. split; [exact A3|]. split; [exact A4|]. split; [exact A5|]. split; [reflexivity|].
  split; [exact A6|]. split; [exact A7|]. split; [rewrite A8; discriminate|]. split; [exact A9|]. split; [exact A10|]. split; [exact A11|].
  split; [exact A12|]. split; [|split; [exact A13|]].
  - apply (reach_pcall pc9 _ (q9 5 None) 1000 qs9 (fst run9p) (snd run9p)).
    + apply q9_distinct.
    + unfold qs9. apply Forall_app. split; [repeat (constructor; [apply q9_distinct|]); constructor|].
      apply Forall_forall. intros x Hx. apply repeat_spec in Hx. subst x. apply q9_distinct.
    + exact (surjective_pairing run9p).
  - split; [vm_compute; reflexivity|]. split; [vm_compute; reflexivity|]. split; vm_compute; reflexivity.
Qed.
(** One categorical variable with the values 0, 1, 2, two workers: its three values have been evaluated, the size is 8. *)
Definition pc10 : pcfg := mkPcfg c10 true 2.
Definition q10 (v : Q) (j : option nat) : pin := mkPin (with_samples (Some [[1; 0; 0]; [0; 1; 0]; [0; 0; 1]]) (fun j => inject_Z (5 + Z.of_nat j)) (prop [1; 0; 0] v (nz 0))) j (APoint (Some [1; 0; 0]) false) 0.
Notation run10p := (pcall pc10 (q10 5 None) 1000 (repeat (q10 5 (Some 0%nat)) 4)).
Example C157_categorical_case : make_algorithm d5 bb10 false u9 = COk (base pc10) /\ cat_vars ga_eps bb10 = [0%nat] /\ all_discrete ga_eps bb10 /\
  search_space_size (base pc10) = Some 8%Z /\ fst run10p = PcHead /\ evalcount (C (p_s (snd run10p))) = 3%Z /\
  sent (p_log (snd run10p)) = [[1; 0; 0]; [0; 1; 0]; [0; 0; 1]] /\
  fst (pstep pc10 (q10 5 None) PcHead (snd run10p)) <> PcFinal.
Proof.
  pose proof C134_categorical_case as A. destruct A as [A1 A]. destruct A as [A2 A]. destruct A as [A3 A]. destruct A as [A4 _].
  split; [exact A1|]. split; [exact A2|]. split; [exact A3|]. split; [exact A4|].
  split; [vm_compute; reflexivity|]. split; [vm_compute; reflexivity|]. split; [vm_compute; reflexivity|]. vm_compute. discriminate.
Qed.
