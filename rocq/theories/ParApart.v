(** * Parallel optimizer: with well separated starting points no result is thrown away
    (single phase, no scaling). *)
From Coq Require Import Permutation.
From Verif Require Export ParOnce.
From Verif Require Import AlgMode ParBudget ParBox ParReuse ParStop ParTabs.
From Verif Require Import AlgBox AlgSep AlgGlue SpecAlg.
From Verif Require Import ModelAlg ModelParallel.
From Coq Require Import Lia Lqa.
Open Scope Z_scope.

(** Beginning of a restart: the state [restart] is called in. *)
Lemma step_begin pc0 q m P kind w P' : not_wait m -> pstep pc0 q m P = (PcWait kind w, P') ->
  exists P0, restart_begin (base pc0) q kind P0 = Ok (PcWait kind w, P') /\
    T (p_s P0) = T (p_s P) /\ p_log P0 = p_log P /\ p_k P0 = p_k P.
Proof.
  intros HW H.
  assert (N1 : no_error (PcWait kind w)) by (intros e; discriminate).
  destruct m as [|b| | | |kk ww| | |e]; cbn [pstep] in H.
  - destruct (loop_cond _ _ _ _); discriminate.
  - destruct (ready _ _) as [j|].
    + apply finish_ok in H; [|exact N1]. destruct (take_eval _ _ _ _); cbn [bind] in H; discriminate.
    + destruct (_ <? _); discriminate.
  - destruct (ready _ _) as [j|].
    + apply finish_ok in H; [|exact N1]. destruct (take_search _ _ _ _); cbn [bind] in H; discriminate.
    + destruct (_ <=? _); discriminate.
  - apply finish_ok in H; [|exact N1]. unfold plan in H. cbv zeta in H. destruct (skip_step _ _); [discriminate|].
    destruct (must_restart_parallel _ _); [|discriminate]. destruct (idle (p_k P)) eqn:Ei; [|discriminate].
    pose proof (restart_begin_eff _ _ _ _ _ _ H) as (w' & Ew & _). injection Ew as -> <-.
    exists P. auto.
  - apply finish_ok in H; [|exact N1]. unfold plan2 in H. cbv zeta in H.
    destruct (linear_phase _ _ _) as [P1|P1|e] eqn:EL; [|discriminate|discriminate].
    destruct (lin_frame _ _ _ _ EL) as (F1 & F2 & F3).
    destruct (_ =? _).
    2: { destruct (_ && _); [|discriminate]. unfold plan_refinement in H. cbv zeta in H.
         match type of H with bind ?x _ = _ => destruct x; cbn [bind] in H; [|discriminate] end.
         destruct (_ && _); [discriminate|]. destruct (_ && _); [discriminate|]. destruct (stale_all _ _); [discriminate|].
         destruct (negb _); discriminate. }
    destruct (idle (p_k P1)) eqn:Ei; [|discriminate].
    pose proof (restart_begin_eff _ _ _ _ _ _ H) as (w' & Ew & _). injection Ew as -> <-.
    eexists. split; [exact H|]. cbn [p_s set_s T set_C p_log p_k]. auto.
  - exfalso. eapply HW. reflexivity.
  - apply finish_ok in H; [|exact N1]. unfold final_step in H. destruct (pend _); [discriminate|]. cbv zeta in H.
    destruct (node_pos _); [discriminate|]. destruct (t_noisy _); [destruct (errs _); discriminate|].
    destruct (current_gap _ _); cbn [bind] in H; discriminate.
  - discriminate.
  - discriminate.
Qed.
Lemma start_begin pc0 q pa P0 kind w P' : pstart pc0 q pa P0 = (PcWait kind w, P') ->
  exists P1, restart_begin (base pc0) q kind P1 = Ok (PcWait kind w, P') /\
    T (p_s P1) = T (p_s P0) /\ p_log P1 = p_log P0.
Proof.
  unfold pstart. cbv zeta. destruct (_ =? 0); [discriminate|]. destruct (_ =? 0).
  - intros H. apply finish_ok in H; [|intros e; discriminate].
    pose proof (restart_begin_eff _ _ _ _ _ _ H) as (w' & Ew & _). injection Ew as -> <-.
    eexists. split; [exact H|]. auto.
  - destruct (current_gap _ _); discriminate.
Qed.

Section Apart.
  Variables (pc0 : pcfg) (ok : pin -> Prop).
  Let c := base pc0.
  Let d := min_dist c.
  Let dim := length (var_lower c).
  Hypothesis Hn : has_noisy c = false.
  Hypothesis Hsc : scaling_on (affine c) (integer_vars c) = false.
  Hypothesis Hbox : length (var_upper c) = length (var_lower c).
  Hypothesis Hd : (0 <= d)%Q.
  Hypothesis He : (0 <= eps_zero c)%Q.
  Hypothesis Hu : forall u, In u (init_node_pos c) -> length u = dim.
  Hypothesis Hs : forall q pts, ok q -> i_samples (q_inp q) = Some pts ->
    separated (d + 2 * eps_zero c) pts /\
    (forall p, In p pts -> length p = dim) /\
    (forall p u, In p pts -> In u (init_node_pos c) -> apart d u p).
  Hypothesis Hp : forall q p, ok q -> proposes q p -> length p = dim.

  Lemma dims m P : preach pc0 ok m P -> no_error m -> Forall (fun p => length p = dim) (all_pos (T (p_s P))).
  Proof.
    intros HR N.
    destruct (region_reach pc0 ok (fun p => length p = dim)) with (m := m) (P := P) as (_ & _ & R & _); auto.
    - intros q pts p Hq E Hin. destruct (Hs q pts Hq E) as (_ & A & _). auto.
    - intros q p Hq Hpp. fold c. rewrite scaling_off_orig by exact Hsc. specialize (Hp q p Hq Hpp).
      destruct (search_bounds_length c Hbox) as (A & B).
      rewrite clip_length; unfold dim in *; lia.
    - fold c. congruence.
    - apply R. intros p E. fold c. rewrite scaling_off_orig by exact Hsc. exact E.
  Qed.

  Lemma apart_begin q kind P w P' : ok q -> restart_begin c q kind P = Ok (PcWait kind w, P') ->
    Forall (fun p => length p = dim) (all_pos (T (p_s P))) ->
    separated d (map t_pos (w_pend w) ++ map (fun te => e_pos (snd te)) (w_got w) ++ map e_pos (w_prev w)) /\
    (forall t u, In t (w_pend w) -> In u (init_node_pos c) -> apart d u (t_pos t)).
  Proof.
    intros Hq H Hall. unfold restart_begin in H. cbv zeta in H. fold (mark (T (p_s P))) in H.
    destruct (_ || _) eqn:Eb.
    2: { injection H as <- _. cbn. split; [constructor|]. intros t u []. }
    destruct (i_samples (q_inp q)) as [pts|] eqn:Es; [|discriminate].
    destruct (Hs q pts Hq Es) as (S1 & S2 & S3).
    change (nodes_at_restart (mark (T (p_s P)))) with (length (all_pos (T (p_s P)))) in H.
    change (all_pos (mark (T (p_s P)))) with (all_pos (T (p_s P))) in H. rewrite firstn_all in H.
    match type of H with context [noisy_mode ?k0] => set (nz := noisy_mode k0) in H end.
    set (rr := if (length (all_pos (T (p_s P))) =? 0)%nat then (pts, []) else remove_existing c nz (mark (T (p_s P))) (all_pos (T (p_s P))) pts) in H.
    assert (X : separated d (fst rr ++ map e_pos (snd rr)) /\ incl (fst rr) pts).
    { unfold rr. destruct (_ =? 0)%nat; cbn [fst snd].
      - cbn [map]. rewrite app_nil_r. split; [|apply incl_refl].
        rewrite <- (map_id pts). apply FOP_map with (S := apart (d + 2 * eps_zero c)); [|exact S1].
        intros p p' _ _ Ha. eapply apart_weaken; [| |exact Ha]; lra.
      - destruct (remove_existing c nz (mark (T (p_s P))) (all_pos (T (p_s P))) pts) as [new prev] eqn:Er. cbn [fst snd].
        split; [|apply remove_existing_spec in Er; tauto].
        eapply FOP_perm; [apply apart_sym|apply Permutation_sym; exact (remove_existing_perm _ _ _ _ _ _ _ Er)|].
        apply FOP_map with (S := apart (d + 2 * eps_zero c)); [|exact S1].
        intros p p' Hp1 Hp2 Ha.
        assert (EO : all_pos (T (p_s P)) = firstn (nodes_at_restart (mark (T (p_s P)))) (all_pos (mark (T (p_s P))))).
        { cbn [nodes_at_restart all_pos mark]. now rewrite firstn_all. }
        assert (LL : forall x, length x = dim -> length (placed c nz (mark (T (p_s P))) (all_pos (T (p_s P))) x) = dim).
        { intros x Lx. destruct (placed_in c nz (mark (T (p_s P))) _ x EO) as [E|E]; [now rewrite E|].
          cbn [all_pos mark] in E. rewrite Forall_forall in Hall. exact (Hall _ E). }
        pose proof (S2 p Hp1) as Lp. pose proof (S2 p' Hp2) as Lq.
        eapply (apart_placed c p p'); [exact He|exact Hd| | |lia| | |exact Ha].
        * now rewrite (LL p Lp).
        * now rewrite (LL p' Lq).
        * now apply placed_near.
        * now apply placed_near. }
    destruct rr as [new prev]. cbn [fst snd] in X. injection H as <- _. cbn [w_pend w_got w_prev map app].
    match goal with |- context [submit_from ?a ?b _] => destruct (submit_from_spec b new a) as (A & _ & _) end. rewrite A.
    destruct X as (X1 & X2). split; [exact X1|].
    intros t u Ht Hin. apply S3; [|exact Hin]. apply X2. rewrite <- A. apply in_map. exact Ht.
  Qed.

  Definition apart_inv (m : pc) (P : pst) : Prop :=
    (match m with
     | PcWait _ w =>
         separated d (map t_pos (w_pend w) ++ map (fun te => e_pos (snd te)) (w_got w) ++ map e_pos (w_prev w)) /\
         (forall t u, In t (w_pend w) -> In u (init_node_pos c) -> apart d u (t_pos t))
     | _ => separated d (node_pos (T (p_s P)) ++ map t_pos (pend (p_k P)))
     end) /\ (forall k, ~ In (PTooClose k) (p_log P)).
  Lemma apart_plain m P : not_wait m -> separated d (node_pos (T (p_s P)) ++ map t_pos (pend (p_k P))) ->
    (forall k, ~ In (PTooClose k) (p_log P)) -> apart_inv m P.
  Proof. intros HW H1 H2. split; [|exact H2]. destruct m; try exact H1. exfalso. eapply HW. reflexivity. Qed.
  Lemma close_more l es : (forall k, ~ In (PTooClose k) l) -> (forall k, ~ In (PTooClose k) es) ->
    forall k, ~ In (PTooClose k) (l ++ es).
  Proof. intros A B k Hk. apply in_app_or in Hk. destruct Hk as [Hk|Hk]; [exact (A k Hk)|exact (B k Hk)]. Qed.
  Lemma sep_far nodes (l : list task) t j : separated d (nodes ++ map t_pos l) -> nth_error l j = Some t ->
    near d (t_pos t) nodes = false.
  Proof.
    intros H Ht. apply near_false; [exact Hd|]. intros x Hx.
    assert (P : Permutation (nodes ++ map t_pos l) (t_pos t :: nodes ++ map t_pos (delete_at j l))).
    { rewrite (Permutation_map t_pos (perm_delete l j t Ht)). cbn [map].
      apply Permutation_sym, Permutation_middle. }
    eapply FOP_perm in H; [|apply apart_sym|exact P]. inversion H as [|? ? F _]; subst.
    rewrite Forall_forall in F. apply F. apply in_or_app. left. exact Hx.
  Qed.
  Lemma sep_move nodes (l : list task) t j : separated d (nodes ++ map t_pos l) -> nth_error l j = Some t ->
    separated d ((nodes ++ [t_pos t]) ++ map t_pos (delete_at j l)).
  Proof.
    intros H Ht. eapply FOP_perm; [apply apart_sym| |exact H].
    rewrite (Permutation_map t_pos (perm_delete l j t Ht)). cbn [map]. rewrite <- app_assoc. apply Permutation_refl.
  Qed.
  Lemma sep_drop nodes (l : list task) j : separated d (nodes ++ map t_pos l) ->
    separated d (nodes ++ map t_pos (delete_at j l)).
  Proof.
    intros H. rewrite map_delete.
    assert (E : nodes ++ delete_at j (map t_pos l) = delete_at (length nodes + j) (nodes ++ map t_pos l)).
    { clear. induction nodes as [|x r IH]; [reflexivity|]. cbn. now rewrite IH. }
    rewrite E. now apply FOP_delete.
  Qed.

  Lemma apart_eval q j P P' : eval_eff_par c q j P P' -> Forall (fun t => t_noisy t = false) (pend (p_k P)) ->
    separated d (node_pos (T (p_s P)) ++ map t_pos (pend (p_k P))) -> (forall k, ~ In (PTooClose k) (p_log P)) ->
    separated d (node_pos (T (p_s P')) ++ map t_pos (pend (p_k P'))) /\ (forall k, ~ In (PTooClose k) (p_log P')).
  Proof.
    intros E QP H D.
    assert (HN : forall t, nth_error (pend (p_k P)) j = Some t -> t_noisy t = false).
    { intros t Ht. apply nth_error_In in Ht. rewrite Forall_forall in QP. auto. }
    destruct E as [t v el eu Ht Ea Nr Es Ecv En El Ek|t v el eu Ht Ea Hz Nr Hx Es Ecv En El Ek|t v el eu t' Ht Ea Hz Ht' Nr Hr Q It Ecv En El Ek|t v el eu Ht Ea Nr Hne Hr Q It Ecv En El SL Eb Elc].
    - pose proof (sep_far _ _ _ _ H Ht) as X. unfold d in X. congruence.
    - rewrite (HN t Ht) in Hz. discriminate.
    - rewrite (HN t Ht) in Hz. discriminate.
    - split.
      + rewrite (q_T _ _ Q). cbn [T insert_node node_pos].
        rewrite (sl_pend _ _ SL). destruct (popped_pend j (t_noisy t) (el, eu) (p_k P)) as (-> & _).
        unfold insert_node. cbn. now apply sep_move.
      + rewrite El. apply close_more; [exact D|]. intros k [X|[X|[]]]; discriminate.
  Qed.
  Lemma snoc_both p nodes l : near d p nodes = false -> near d p l = false -> separated d (nodes ++ l) ->
    separated d ((nodes ++ [p]) ++ l) /\ separated d (nodes ++ l ++ [p]).
  Proof.
    intros N1 N2 H.
    assert (S1 : separated d ((nodes ++ l) ++ [p])).
    { apply separated_snoc; [exact Hd| |exact H]. rewrite near_false in N1, N2 |- * by exact Hd.
      intros x Hx. apply in_app_or in Hx. destruct Hx; auto. }
    split; [|now rewrite app_assoc]. eapply FOP_perm; [apply apart_sym| |exact S1].
    rewrite <- !app_assoc. apply Permutation_app_head. apply Permutation_app_comm.
  Qed.
  Lemma apart_search q j P P' : search_eff_par c q j P P' -> tpos (p_k P) = map t_pos (pend (p_k P)) ->
    separated d (node_pos (T (p_s P)) ++ map t_pos (pend (p_k P))) -> (forall k, ~ In (PTooClose k) (p_log P)) ->
    separated d (node_pos (T (p_s P')) ++ map t_pos (pend (p_k P'))) /\ (forall k, ~ In (PTooClose k) (p_log P')).
  Proof.
    intros E ET H D.
    destruct E as [e P1 He0 E1 ->|e p id P1 P2 He0 Hpp E1 R U Hid Hz].
    - subst P1. unfold discard_search. destruct (s_id e); split; assumption.
    - destruct R as [->|Hc _|jj s' Hc _ _ _ _ _ _]; [|congruence|congruence]. subst P1.
      destruct U as [Q1 It Ecv En El SL Eb Elc|pp po jj v nz ee Ep Epo Hne N1 N2 Hl Hv Hzz Hee Q1 It Ecv En El SL Eb Elc|pp po Ep Epo Hne N1 N2 ->].
      + cbn [set_k p_s p_k p_log pend k_srch] in *. rewrite (q_T _ _ Q1), (sl_pend _ _ SL), El. split; assumption.
      + cbn [set_k p_s p_k p_log pend k_srch tpos] in *. rewrite (q_T _ _ Q1), (sl_pend _ _ SL), El.
        rewrite ET in N2. cbn [pend k_srch]. split; [apply snoc_both; assumption|].
        apply close_more; [exact D|]. intros k [X|[]]; discriminate.
      + cbn [set_k p_s p_k p_log pend k_srch tpos submit_point note set_next set_s k_push T set_C] in *. rewrite ET in N2.
        rewrite map_app. cbn [map t_pos]. split; [apply snoc_both; assumption|].
        apply close_more; [exact D|]. intros k [X|[]]; discriminate.
  Qed.
  Lemma apart_finish q kind w P m P' : finish_eff c q kind w P m P' -> apart_inv (PcWait kind w) P -> apart_inv m P'.
  Proof.
    intros E ((S1 & S2) & D). pose proof (fe_m _ _ _ _ _ _ _ E) as Em.
    destruct (fe_ex _ _ _ _ _ _ _ E) as (usr & uevs & nu & rows & Eu & _ & Er & _ & ET & _ & _ & _ & EL & _).
    apply apart_plain; [destruct kind; subst m; discriminate| |].
    - rewrite ET, (fe_pend _ _ _ _ _ _ _ E). cbn [node_pos restart_tabs].
      assert (Hid : map (fun e => to_scaled c (e_pos e)) rows = map e_pos rows).
      { apply map_ext. intros e. now apply scaling_off_scaled. }
      rewrite Hid, Er, !map_app, map_map. set (G := map (fun x => e_pos (snd x)) (w_got w) ++ map e_pos (w_prev w)) in *.
      assert (SU : separated d (map e_pos usr) /\ (forall y, In y (map e_pos usr) -> In y (init_node_pos c)) /\
        (forall y x, In y (map e_pos usr) -> In x G -> apart d x y)).
      { assert (GE : map (fun e : entry => fst (fst (fst e))) (map snd (w_got w) ++ w_prev w) = G).
        { unfold G. rewrite map_app, map_map. reflexivity. }
        unfold restart_user in Eu. destruct (_ && _); [|injection Eu as <- _ _; cbn; split; [constructor|split; [intros y []|intros y x []]]].
        cbv zeta in Eu. match type of Eu with context [select_user _ ?g _ _ _] => replace g with G in Eu by (symmetry; exact GE) end.
        destruct (select_user_sep c G (init_node_pos c) Hd []) as (SS1 & SS2). cbn [app length] in SS1, SS2.
        assert (LT : forall j, In j (select_user c G [] 0 (init_node_pos c)) -> (j < length (init_node_pos c))%nat).
        { intros j Hj. apply select_user_lt in Hj. cbn in Hj. lia. }
        destruct (_ <? _)%nat; injection Eu as <- _ _; rewrite !map_map; cbn [fst snd].
        - assert (EI : map (fun x : nat * nat => e_pos (nth (snd x) (init_node_pos c) [], i_rs_user (q_inp q) (fst x), false, (0, 0)%Q)) (indexed 0 (select_user c G [] 0 (init_node_pos c)))
             = map (fun j => nth j (init_node_pos c) []) (select_user c G [] 0 (init_node_pos c))).
          { rewrite <- (indexed_snd (select_user c G [] 0 (init_node_pos c)) 0) at 2. rewrite map_map. reflexivity. }
          rewrite EI. split; [exact SS1|]. split; intros y; [|intros x]; intros Hy; apply in_map_iff in Hy; destruct Hy as (j & <- & Hj).
          + apply nth_In. auto.
          + intros Hx. apply apart_sym. apply (proj1 (SS2 j Hj)). exact Hx.
        - assert (EI : map (fun x : nat => e_pos (nth x (init_node_pos c) [], nth x (init_node_val c) 0%Q, false, (0, 0)%Q)) (select_user c G [] 0 (init_node_pos c))
             = map (fun j => nth j (init_node_pos c) []) (select_user c G [] 0 (init_node_pos c))) by reflexivity.
          rewrite EI. split; [exact SS1|]. split; intros y; [|intros x]; intros Hy; apply in_map_iff in Hy; destruct Hy as (j & <- & Hj).
          + apply nth_In. auto.
          + intros Hx. apply apart_sym. apply (proj1 (SS2 j Hj)). exact Hx. }
      destruct SU as (U1 & U2 & U3).
      assert (Z : separated d ((map t_pos (w_pend w) ++ G) ++ map e_pos usr)).
      { apply FOP_app; [exact S1|exact U1|]. intros x y Hx Hy. apply in_app_or in Hx. destruct Hx as [Hx|Hx]; [|auto].
        apply in_map_iff in Hx. destruct Hx as (t & <- & Ht). apply apart_sym. apply S2; auto. }
      eapply FOP_perm; [apply apart_sym| |exact Z].
      rewrite <- app_assoc. apply Permutation_app_comm.
    - rewrite EL. apply close_more; [exact D|]. intros k Hk.
      apply in_app_or in Hk. destruct Hk as [Hk|Hk]; [apply in_map_iff in Hk; destruct Hk as (y & Hy & _); discriminate|].
      apply in_app_or in Hk. destruct Hk as [Hk|Hk]; [apply in_map_iff in Hk; destruct Hk as (y & Hy & _); discriminate|].
      unfold user_log in Hk. destruct (0 <? nu).
      + apply in_flat_map in Hk. destruct Hk as (y & _ & Hy). cbn in Hy. intuition discriminate.
      + apply in_map_iff in Hk; destruct Hk as (y & Hy & _); discriminate.
  Qed.
  Lemma begin_noclose q kind P w P' : begin_eff c q kind P w P' -> (forall k, ~ In (PTooClose k) (p_log P)) ->
    forall k, ~ In (PTooClose k) (p_log P').
  Proof.
    intros B D. destruct (begin_new _ _ _ _ _ _ B) as (es & _ & _).
    destruct B as [(new & prev & nb & _ & _ & _ & _ & _ & _ & _ & _ & _ & _ & _ & _ & _ & EL & _) _ _].
    rewrite EL. apply close_more; [exact D|]. intros k Hk. apply in_map_iff in Hk. destruct Hk as (y & Hy & _). discriminate.
  Qed.
  Lemma apart_reach m P : preach pc0 ok m P -> no_error m -> apart_inv m P.
  Proof.
    intros HR. induction HR as [q pa m P Hok H|q pa P0 m P Hok HR IH H|q m0 P0 m P Hok HR IH H]; intros N.
    - pose proof (pstart_effect _ _ _ _ _ _ H N) as [w It -> B|It -> Es El En SL Eb Ei Ep Eg]; [|cbn in It; congruence].
      destruct (start_begin _ _ _ _ _ _ _ H) as (P1 & R1 & R2 & R3).
      destruct (apart_begin q (WStart pa) P1 w P Hok R1) as (A1 & A2).
      { rewrite R2. constructor. }
      split; [split; assumption|]. eapply begin_noclose; [exact B|]. intros k [].
    - assert (ND : no_error PcDone) by (intros e; discriminate).
      destruct (IH ND) as (A & D).
      pose proof (pstart_effect _ _ _ _ _ _ H N) as [w It -> B|It -> Es El En SL Eb Ei Ep Eg].
      + destruct (start_begin _ _ _ _ _ _ _ H) as (P1 & R1 & R2 & R3).
        destruct (apart_begin q (WStart pa) P1 w P Hok R1) as (A1 & A2).
        { rewrite R2. eapply dims; eauto. }
        split; [split; assumption|]. eapply begin_noclose; [exact B|]. exact D.
      + destruct (idle_reach pc0 ok PcDone P0 HR ND) as (_ & EP). specialize (EP eq_refl).
        apply apart_plain; [discriminate| |rewrite El; exact D].
        rewrite Es, (sl_pend _ _ SL). rewrite EP in A. exact A.
    - assert (N0 : no_error m0).
      { intros e ->. cbn in H. injection H as <- <-. now apply (N e). }
      specialize (IH N0).
      pose proof (pstep_effect _ _ _ _ _ _ H N) as E0.
      destruct (quiet_reach pc0 ok m0 P0 Hn HR N0) as (_ & QP & _).
      destruct E0 as [-> -> -> _| -> -> -> _|b -> -> Hm| -> -> Hm| -> -> ->|kind w w' -> -> -> Ew Hw|b j -> -> E|j -> -> E|Hm E|j kind w w' -> -> E|kind w -> E|t r -> -> Ep E| -> -> Ep ->]; try exact IH.
      + destruct Hm as [(-> & _)|(-> & _)]; exact IH.
      + destruct Hm as [(-> & _)|(-> & _)]; exact IH.
      + destruct IH as ((A1 & A2) & D). subst w'. split; [split; assumption|exact D].
      + destruct IH as (A & D). exact (apart_eval _ _ _ _ E QP A D).
      + destruct IH as (A & D). apply (apart_search _ _ _ _ E); auto.
        apply (lists_reach pc0 ok _ _ HR N0). split; discriminate.
      + assert (A : separated d (node_pos (T (p_s P0)) ++ map t_pos (pend (p_k P0))) /\ (forall k, ~ In (PTooClose k) (p_log P0)))
          by (destruct Hm; subst m0; exact IH). destruct A as (A & D).
        assert (HW0 : not_wait m0) by (destruct Hm; subst m0; discriminate).
        destruct E as [k' Hm' Q1 It En El Ek SL Eb Elc|id bad k' -> Q1 It En El Ek I1 I2 SL Eb Eb2 Elc|kind w P1 Hk -> Hi Q1 It En El Ek B].
        * apply apart_plain; [destruct Hm' as [->| ->]; discriminate| |rewrite El; exact D].
          rewrite (q_T _ _ Q1), Ek, (sl_pend _ _ SL). exact A.
        * apply apart_plain; [discriminate| |rewrite El; exact D].
          rewrite (q_T _ _ Q1), Ek, (sl_pend _ _ SL). exact A.
        * destruct (step_begin _ _ _ _ _ _ _ HW0 H) as (P2 & R1 & R2 & R3 & R4).
          destruct (apart_begin q kind P2 w P Hok R1) as (A1 & A2).
          { rewrite R2. eapply dims; eauto. }
          split; [split; assumption|]. eapply begin_noclose; [exact B|]. rewrite El. exact D.
      + destruct IH as ((A1 & A2) & D).
        destruct E as [(t & v & el & eu & Ht & Ea & W1 & W2 & W3 & W4 & EL) Es Ecv En Ek].
        split.
        * split.
          -- rewrite W1, W2, W4, map_app. cbn [map snd e_pos fst].
             eapply FOP_perm; [apply apart_sym| |exact A1].
             rewrite (Permutation_map t_pos (perm_delete _ _ _ Ht)). cbn [map]. rewrite <- !app_assoc.
             set (del := map t_pos (delete_at j (w_pend w))). set (g := map (fun te => e_pos (snd te)) (w_got w)).
             set (pv := map e_pos (w_prev w)). change (Permutation (t_pos t :: del ++ g ++ pv) (del ++ g ++ [t_pos t] ++ pv)).
             rewrite (app_assoc del g ([t_pos t] ++ pv)). apply Permutation_cons_app. rewrite app_assoc. reflexivity.
          -- rewrite W1. intros t0 u Ht0. apply A2. eapply in_delete; exact Ht0.
        * rewrite EL. apply close_more; [exact D|]. intros k [X|[]]; discriminate.
      + eapply apart_finish; eauto.
      + destruct IH as (A & D). destruct E as [Ft Fne Fs Fit Fn Fl Fp Fsr Fb].
        apply apart_plain; [discriminate| |].
        * rewrite (q_T _ _ Fs), Fp. unfold insert_node. cbn. rewrite Ep in A. cbn [map] in A.
          rewrite <- app_assoc. exact A.
        * rewrite Fl. apply close_more; [exact D|]. intros k [X|[X|[]]]; discriminate.
  Qed.
End Apart.
