(** * Refinement along a run: invariant, start at the best node, stale data after a failure. *)
From Verif Require Export RefineAlg WitnessAlg.
From Coq Require Import Lia.
Open Scope Z_scope.

(** In every pass of the run the linear-algebra code succeeds. *)
Fixpoint linear_models_ok (c : cfg) (is : list inp) (s : st) (l : loc) : Prop :=
  match is with
  | [] => True
  | i :: r => linear_model_ok s i /\
              match pass c i s l with Cont s' l' => linear_models_ok c r s' l' | _ => True end
  end.
Lemma ready_run c : 0 <= num_global_searches c -> forall is s l s' l', refinement_ready c s ->
  linear_models_ok c is s l -> run c is s l = Running s' l' -> refinement_ready c s'.
Proof.
  intros Hg. induction is as [|i r IH]; intros s l s' l' R O H; cbn in *.
  - injection H as <- <-. exact R.
  - destruct O as [O1 O2]. destruct (pass c i s l) as [s1 l1| |] eqn:E; try discriminate.
    eapply IH; [|exact O2|exact H]. eapply ready_pass; eauto.
Qed.
Lemma start_ready c i0 pa s l : start_call c i0 pa (init_st c) = Ok (s, l) -> refinement_ready c s.
Proof.
  unfold start_call. cbn [init_st C itercount]. change (itercount _ =? 0) with true. cbv iota.
  destruct (restart c i0 (init_st c)) as [s1|] eqn:E; cbn [bind]; [|discriminate].
  destruct (current_gap c s1) as [g|]; cbn [bind]; [|discriminate]. intros H. injection H as <- <-.
  left. eapply restart_cons; exact E.
Qed.
(** A refinement pass in a ready state gets past the preparation. *)
Lemma stale_false t js : (forall j, In j js -> (j < length (node_pos t))%nat) -> stale t js = false.
Proof.
  intros H. unfold stale. apply Bool.not_true_is_false. intros E. apply existsb_exists in E as (j & Hj & E).
  apply Nat.leb_le in E. specialize (H j Hj). lia.
Qed.
Lemma ready_prepare c i s : 0 <= num_global_searches c -> current_step (C s) = refinement_step c ->
  refinement_ready c s -> linear_model_ok s i -> (2 <= length (node_pos (T s)))%nat ->
  exists s2 it, prepare c i s = PGo s2 /\ ref_iterate_index (Rf s2) = Some it /\ In it (ref_model_set (Rf s2)) /\
    (forall j, In j (ref_model_set (Rf s2)) -> (j < length (node_pos (T s)))%nat) /\
    (num_cons_refinement (Rf s) = 0 -> it = fmin_index (I s) /\ ref_radius (Rf s2) = Some (i_ref_radius i) /\ ref_model_set (Rf s2) = i_ref_set i).
Proof.
  intros Hg E R (Lok & Lv & Lin) K. unfold prepare. cbv zeta. rewrite E, Lok. cbn [negb].
  replace (refinement_step c <=? local_search_step c) with false by (symmetry; apply Z.leb_gt; unfold refinement_step, local_search_step; lia).
  rewrite Z.eqb_refl. replace (length (node_pos (T s)) <? 2)%nat with false by (symmetry; apply Nat.ltb_ge; lia).
  rewrite Bool.andb_false_r.
  assert (Sf : stale (T s) [fmin_index (I s)] = false) by (apply stale_false; intros j [<-|[]]; auto).
  rewrite Sf, Bool.andb_false_r.
  destruct R as [R|(R1 & R2 & R3 & it & R4 & R5)].
  - rewrite R. cbn [Z.eqb]. cbv iota. cbn [set_R Rf ref_model_set ref_iterate_index].
    rewrite (stale_false _ _ Lv), Sf. do 2 eexists. split; [reflexivity|]. cbn. auto 8.
  - replace (num_cons_refinement (Rf s) =? 0) with false by (symmetry; apply Z.eqb_neq; lia). cbv iota.
    rewrite (stale_false _ _ R3), R4, (stale_false _ [it]) by (intros j [<-|[]]; auto).
    exists s, it. split; [reflexivity|]. split; auto. split; auto. split; auto. intros; lia.
Qed.

(** ** Witness: the linear model cannot be built in the second refinement pass. *)
Definition with_ref (b : bool) (i : inp) : inp :=
  mkInp (i_clock_ok i) (i_samples i) (i_rs_acc i) (i_rs_noisy i) (i_rs_user i) (i_lin_ok i) b
        (i_ref_set i) (i_ref_radius i) (i_prop i) (i_reeval i) (i_restore i) (i_model_impr i) (i_real_impr i)
        (i_to_replace i) (i_rank_def i) (i_time_unl i) (i_val i) (i_nval i).
Definition is_ref_fail : list inp := is_ref ++
  [prop [7%Q] 3%Q (nz 0); with_ref false (prop [8%Q] 3%Q (nz 0));
   prop [2%Q] 0%Q (nz 0); prop [3%Q] (-1)%Q (nz 0); prop [1%Q] (-2)%Q (nz 0)].
Definition run_ref_fail := call c_ref dflt_inp 1000 is_ref_fail (init_st c_ref).
Definition s_ref_fail := at_state c_ref run_ref_fail.
