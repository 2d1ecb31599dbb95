(** * Separation of pending points: no evaluation of a proposed point is wasted. *)
From Coq Require Import Permutation.
From Verif Require Export ParStuck.
Open Scope Z_scope.

Section Sep.
  Variables (pc0 : pcfg) (ok : pin -> Prop).
  Let c := base pc0.
  Definition far (p q : point) : Prop := dist_le p q (min_dist c) = false.
  Lemma far_sym p q : far p q -> far q p.
  Proof.
    unfold far, dist_le. destruct (Qle_bool 0 (min_dist c)); auto. cbn.
    intros H. destruct (Qle_bool (sqdist q p) _) eqn:E; auto.
    apply Qle_bool_iff in E. rewrite sqdist_sym in E. apply Qle_bool_iff in E. congruence.
  Qed.
  Lemma near_far p ps : near (min_dist c) p ps = false -> Forall (far p) ps.
  Proof.
    unfold near. induction ps as [|x r IH]; cbn; auto. intros H. apply orb_false_iff in H.
    destruct H. constructor; auto.
  Qed.
  Lemma far_near p ps : Forall (far p) ps -> near (min_dist c) p ps = false.
  Proof.
    unfold near. induction 1 as [|x r H _ IH]; cbn; auto. unfold far in H. now rewrite H.
  Qed.
  Definition prop_task (t : task) : Prop := t_id t <> SInit.
  Definition Rp (t u : task) : Prop := prop_task t \/ prop_task u -> far (t_pos t) (t_pos u).
  Lemma Rp_sym t u : Rp t u -> Rp u t.
  Proof. intros H K. apply far_sym, H. tauto. Qed.
  Fixpoint pairs (l : list task) : Prop :=
    match l with [] => True | t :: r => Forall (Rp t) r /\ pairs r end.
  Lemma pairs_delete l : forall j, pairs l -> pairs (delete_at j l).
  Proof.
    induction l as [|t r IH]; intros [|j] H; cbn in *; auto; [tauto|].
    destruct H. split; [now apply in_del|auto].
  Qed.
  Lemma pairs_snoc l t : pairs l -> Forall (Rp t) l -> pairs (l ++ [t]).
  Proof.
    induction l as [|u r IH]; cbn; auto. intros (H1 & H2) H. inversion H; subst.
    split; [|auto]. apply Forall_app. split; auto. constructor; auto. now apply Rp_sym.
  Qed.
  Lemma pairs_pop l : forall j t, pairs l -> nth_error l j = Some t -> Forall (Rp t) (delete_at j l).
  Proof.
    induction l as [|u r IH]; intros [|j] t H Ht; cbn in *; try discriminate.
    - injection Ht as ->. tauto.
    - destruct H as (H1 & H2). constructor; [|auto].
      apply nth_error_In in Ht. rewrite Forall_forall in H1. apply Rp_sym. auto.
  Qed.
  Definition clear_of (nodes : list point) (t : task) : Prop := prop_task t -> Forall (far (t_pos t)) nodes.
  Definition sep (k : ploc) (nodes : list point) : Prop :=
    tpos k = map t_pos (pend k) /\ pairs (pend k) /\ Forall (clear_of nodes) (pend k).

  Lemma sep_init ts nodes k : pend k = ts -> tpos k = map t_pos ts -> Forall (fun t => t_id t = SInit) ts -> sep k nodes.
  Proof.
    intros <- E F. split; [exact E|]. split.
    - clear E. induction F as [|t r H F IH]; cbn; auto. split; auto. eapply Forall_impl; [|exact F].
      intros u Hu [K|K]; exfalso; apply K; assumption.
    - eapply Forall_impl; [|exact F]. intros t H K. exfalso. apply K. assumption.
  Qed.
  Lemma sep_popped j b e k nodes : sep k nodes -> sep (popped j b e k) nodes.
  Proof.
    intros (H1 & H2 & H3). destruct (popped_pend j b e k) as (E1 & _).
    assert (E2 : tpos (popped j b e k) = delete_at j (tpos k)) by (destruct b; reflexivity).
    unfold sep. rewrite E1, E2, H1, <- map_delete. split; [reflexivity|].
    split; [now apply pairs_delete|now apply in_del].
  Qed.
  Lemma sep_lists k k' nodes : same_lists k k' -> sep k nodes -> sep k' nodes.
  Proof. intros [A B D E F G] (H1 & H2 & H3). unfold sep. now rewrite A, B. Qed.
  Lemma sep_push t v k nodes : sep k nodes -> Forall (Rp t) (pend k) -> clear_of nodes t -> sep (k_push t v k) nodes.
  Proof.
    intros (H1 & H2 & H3) R K. unfold sep. cbn. rewrite H1, map_app. split; [reflexivity|].
    split; [now apply pairs_snoc|]. apply Forall_app. split; auto.
  Qed.
  Lemma sep_node k nodes x : sep k nodes -> Forall (fun t => prop_task t -> far (t_pos t) x) (pend k) ->
    sep k (nodes ++ [x]).
  Proof.
    intros (H1 & H2 & H3) R. split; [exact H1|]. split; [exact H2|].
    apply Forall_forall. intros t Ht K. rewrite Forall_forall in H3, R. apply Forall_app.
    split; [now apply H3|]. constructor; auto.
  Qed.
  Lemma sep_fewer k nodes nodes' : incl nodes' nodes -> sep k nodes -> sep k nodes'.
  Proof.
    intros Hi (H1 & H2 & H3). split; [exact H1|]. split; [exact H2|].
    eapply Forall_impl; [|exact H3]. intros t K P. specialize (K P). rewrite Forall_forall in *. auto.
  Qed.

  (** Log facts. *)
  Definition drops_ok (P : pst) : Prop :=
    (forall k, In (PTooClose k) (p_log P) -> exists p nz, In (PSubmit k p nz SInit) (p_log P)) /\
    (forall k, In (PSuperseded k) (p_log P) -> exists p id, In (PSubmit k p true id) (p_log P)).
  Lemma drops_more P P' es : p_log P' = p_log P ++ es -> drops_ok P ->
    (forall k, In (PTooClose k) es -> exists p nz, In (PSubmit k p nz SInit) (p_log P)) ->
    (forall k, In (PSuperseded k) es -> exists p id, In (PSubmit k p true id) (p_log P)) -> drops_ok P'.
  Proof.
    intros E (H1 & H2) K1 K2. unfold drops_ok. rewrite E. split; intros k Hk; apply in_app_or in Hk.
    - assert (X : exists p nz, In (PSubmit k p nz SInit) (p_log P)) by (destruct Hk; auto).
      destruct X as (p & nz & X). exists p, nz. apply in_or_app. auto.
    - assert (X : exists p id, In (PSubmit k p true id) (p_log P)) by (destruct Hk; auto).
      destruct X as (p & id & X). exists p, id. apply in_or_app. auto.
  Qed.
  Lemma drops_same P P' : p_log P' = p_log P -> drops_ok P -> drops_ok P'.
  Proof. unfold drops_ok. now intros ->. Qed.

  Definition sep_inv (m : pc) (P : pst) : Prop :=
    (in_loop m -> sep (p_k P) (node_pos (T (p_s P)))) /\ drops_ok P.
  Lemma nodes_quiet s s' : quiet s s' -> node_pos (T s') = node_pos (T s).
  Proof. intros Q. now rewrite (q_T _ _ Q). Qed.

  Lemma sep_eval q j P P' : eval_eff_par c q j P P' -> (forall t, In t (pend (p_k P)) -> In (sub_ev t) (p_log P)) ->
    sep (p_k P) (node_pos (T (p_s P))) -> drops_ok P -> sep (p_k P') (node_pos (T (p_s P'))) /\ drops_ok P'.
  Proof.
    intros E HP H D. pose proof H as (H1 & H2 & H3).
    destruct E as [t v el eu Ht Ea Nr Es Ecv En El Ek|t v el eu Ht Ea Hn Nr Hx Es Ecv En El Ek|t v el eu t' Ht Ea Hn Ht' Nr Hr Q It Ecv En El Ek|t v el eu Ht Ea Nr Hne Hr Q It Ecv En El SL Eb Elc].
    - split; [rewrite Ek, Es; now apply sep_popped|].
      pose proof (nth_error_In _ _ Ht) as Hin.
      eapply drops_more; [exact El|exact D| |].
      + intros k [Hk|[Hk|[]]]; [discriminate|]. injection Hk as <-. exists (t_at t), (t_noisy t).
        specialize (HP t Hin). unfold sub_ev in HP.
        assert (Hid : t_id t = SInit); [|rewrite <- Hid; exact HP].
        rewrite Forall_forall in H3. specialize (H3 t Hin). unfold clear_of, prop_task in H3.
        destruct (t_id t); auto; exfalso; (rewrite far_near in Nr; [discriminate|]); apply H3; discriminate.
      + intros k [Hk|[Hk|[]]]; discriminate.
    - split; [rewrite Ek, Es; exact (sep_popped j true (el, eu) _ _ H)|].
      pose proof (nth_error_In _ _ Ht) as Hin.
      eapply drops_more; [exact El|exact D| |].
      + intros k [Hk|[Hk|[]]]; discriminate.
      + intros k [Hk|[Hk|[]]]; [discriminate|]. injection Hk as <-. exists (t_at t), (t_id t).
        rewrite <- Hn. apply HP. exact Hin.
    - split.
      + rewrite Ek, (nodes_quiet _ _ Q). cbn [T set_C].
        assert (RT : forall u, Rp t u -> Rp t' u) by (subst t'; intros u K; exact K).
        apply sep_push.
        * now apply sep_popped.
        * destruct (popped_pend j true (el, eu) (p_k P)) as (-> & _).
          eapply Forall_impl; [exact RT|]. now apply pairs_pop.
        * rewrite Forall_forall in H3. specialize (H3 t (nth_error_In _ _ Ht)). subst t'. exact H3.
      + eapply drops_more; [exact El|exact D| |].
        * intros k [Hk|[Hk|[Hk|[]]]]; discriminate.
        * intros k [Hk|[Hk|[Hk|[]]]]; try discriminate. injection Hk as <-. exists (t_at t), (t_id t).
          rewrite <- Hn. apply HP. now apply nth_error_In in Ht.
    - split.
      + eapply sep_lists; [exact SL|]. rewrite (nodes_quiet _ _ Q).
        change (node_pos (T (insert_node (t_pos t) (to_orig c (t_pos t)) v (t_noisy t)
                  (if t_noisy t then (el, eu) else (0, 0)%Q) (p_s P)))) with (node_pos (T (p_s P)) ++ [t_pos t]).
        apply sep_node; [now apply sep_popped|].
        destruct (popped_pend j (t_noisy t) (el, eu) (p_k P)) as (-> & _).
        eapply Forall_impl; [|apply pairs_pop; eassumption]. intros u K Hu. apply far_sym. apply K. auto.
      + eapply drops_more; [exact El|exact D| |]; intros k [Hk|[Hk|[]]]; discriminate.
  Qed.

  Lemma sep_search q j P P' : search_eff_par c q j P P' ->
    sep (p_k P) (node_pos (T (p_s P))) -> drops_ok P -> sep (p_k P') (node_pos (T (p_s P'))) /\ drops_ok P'.
  Proof.
    intros E H D.
    destruct E as [e P1 He E1 ->|e p id P1 P2 He Hp E1 R U Hid Hz].
    - pose proof (discard_lists c (s_id e) P1) as SL. subst P1. split.
      + eapply sep_lists; [exact SL|]. destruct (s_id e); exact H.
      + eapply drops_same; [|exact D]. destruct (s_id e); reflexivity.
    - assert (X : sep (p_k P2) (node_pos (T (p_s P2))) /\ drops_ok P2).
      { subst P1. destruct R as [->|_ ->|jj s' _ Hr Es _ _ El Ek]; [split; assumption|split; assumption|].
        split.
        - apply remove_fields in Hr. destruct Hr as (_ & HT & _).
          apply (sep_fewer _ (node_pos (T (p_s P)))).
          + rewrite Es, HT. cbn. intros x Hx. now apply in_delete in Hx.
          + destruct Ek as [->| ->]; exact H.
        - eapply drops_more; [exact El|exact D| |]; intros k [Hk|[]]; discriminate. }
      destruct X as (X & D2). clear H D.
      destruct U as [Q1 It Ecv En El SL Eb Elc|pp po jj v nz ee Ep Epo Hne N1 N2 Hl Hv Hzz Hee Q1 It Ecv En El SL Eb Elc|pp po Ep Epo Hne N1 N2 ->].
      + split; [|eapply drops_same; eauto]. rewrite (nodes_quiet _ _ Q1). eapply sep_lists; eauto.
      + split.
        * eapply sep_lists; [exact SL|]. rewrite (nodes_quiet _ _ Q1).
          change (node_pos (T (insert_node pp po v nz ee (p_s P2)))) with (node_pos (T (p_s P2)) ++ [pp]).
          apply sep_node; [exact X|]. destruct X as (X1 & _ & _). rewrite X1 in N2.
          apply near_far in N2. rewrite Forall_forall in N2. apply Forall_forall. intros t Ht _.
          apply far_sym. apply N2. now apply in_map.
        * eapply drops_more; [exact El|exact D2| |]; intros k [Hk|[]]; discriminate.
      + split.
        * unfold submit_point. cbn [p_k p_s note set_next set_k set_s T set_C]. apply sep_push; [exact X| |].
          -- destruct X as (X1 & _ & _). rewrite X1 in N2. apply near_far in N2. rewrite Forall_forall in N2.
             apply Forall_forall. intros t Ht _. cbn. apply N2. now apply in_map.
          -- intros _. cbn. now apply near_far.
        * eapply (drops_more P2 _ [_]); [reflexivity|exact D2| |]; intros k [Hk|[]]; discriminate.
  Qed.

  Lemma drops_begin q kind P w P' : begin_eff c q kind P w P' -> drops_ok P -> drops_ok P'.
  Proof.
    intros [(new & prev & nb & W1 & _ & _ & _ & _ & _ & _ & _ & _ & _ & _ & _ & _ & EL & _) _ _] D.
    eapply drops_more; [exact EL|exact D| |]; intros k Hk; apply in_sub_log in Hk; destruct Hk as (t & _ & E); discriminate.
  Qed.
  Lemma sep_nil k nodes : pend k = [] -> tpos k = [] -> sep k nodes.
  Proof. intros E1 E2. unfold sep. rewrite E1, E2. cbn. auto. Qed.

  Lemma sep_reach m P : preach pc0 ok m P -> no_error m -> sep_inv m P.
  Proof.
    apply (preach_inv3 pc0 ok sep_inv).
    - intros q pa m1 P1 _ [w It -> B|It -> Es El En SL Eb Ei Ep Eg].
      + split; [|eapply drops_begin; [exact B|split; intros k []]].
        intros _. rewrite (be_k _ _ _ _ _ _ B). now apply sep_nil.
      + split; [intros _; eapply sep_lists; [exact SL|now apply sep_nil]|]. eapply drops_same; [exact El|split; intros k []].
    - intros q pa P0 m1 P1 _ _ (_ & D) _ [w It -> B|It -> Es El En SL Eb Ei Ep Eg].
      + split; [|eapply drops_begin; [exact B|exact D]].
        intros _. rewrite (be_k _ _ _ _ _ _ B). now apply sep_nil.
      + split; [intros _; eapply sep_lists; [exact SL|now apply sep_nil]|]. eapply drops_same; [exact El|exact D].
    - intros q m1 P1 m2 P2 Hq (H & D) HR N (WI & WD) WT E0.
      assert (HP : forall t, In t (pend (p_k P1)) -> In (sub_ev t) (p_log P1)).
      { intros t Ht. destruct (prov_reach pc0 ok m1 P1 HR N) as (A & _). now apply A. }
      destruct E0 as [-> -> -> _| -> -> -> _|b -> -> Hm| -> -> Hm| -> -> ->|kind w w' -> -> -> Ew Hw|b j -> -> E|j -> -> E|Hm E|j kind w w' -> -> E|kind w -> E|t r -> -> Ep E| -> -> Ep ->].
      + split; [intros _; apply H; split; discriminate|exact D].
      + split; [intros [X _]; congruence|exact D].
      + split; [intros _; apply H; split; discriminate|exact D].
      + split; [intros _; apply H; split; discriminate|exact D].
      + split; [intros [_ X]; congruence|exact D].
      + split; [intros _; apply H; split; discriminate|exact D].
      + destruct (sep_eval q j P1 P2 E HP) as (A & B); [apply H; split; discriminate|exact D|]. split; auto.
      + destruct (sep_search q j P1 P2 E) as (A & B); [apply H; split; discriminate|exact D|]. split; auto.
      + assert (L : sep (p_k P1) (node_pos (T (p_s P1)))) by (apply H; destruct Hm; subst; split; discriminate).
        destruct E as [k' Hm' Q1 It En El Ek SL Eb Elc|id bad k' -> Q1 It En El Ek I1 I2 SL Eb Eb2 Elc|kind w P0 Hk -> Hi Q1 It En El Ek B].
        * split; [intros _|eapply drops_same; eauto]. rewrite Ek, (nodes_quiet _ _ Q1). eapply sep_lists; eauto.
        * split; [intros _|eapply drops_same; eauto]. rewrite Ek, (nodes_quiet _ _ Q1). eapply sep_lists; [exact SL|exact L].
        * split; [intros _|eapply drops_begin; [exact B|]; eapply drops_same; eauto].
          rewrite (be_k _ _ _ _ _ _ B), Ek. apply idle_iff in Hi. destruct Hi as [Hi _].
          apply sep_nil; [exact Hi|]. destruct L as (-> & _). now rewrite Hi.
      + destruct E as [(t & v & el & eu & Ht & Ea & W1 & W2 & W3 & W4 & EL) Es Ecv En Ek].
        split; [intros _; rewrite Ek, Es; apply H; split; discriminate|].
        eapply drops_more; [exact EL|exact D| |]; intros k [Hk|[]]; discriminate.
      + pose proof (fe_m _ _ _ _ _ _ _ E) as Em. split.
        * intros _. eapply sep_init; [apply (fe_pend _ _ _ _ _ _ _ E)|apply (fe_tpos _ _ _ _ _ _ _ E)|].
          eapply WT; reflexivity.
        * destruct (fe_ex _ _ _ _ _ _ _ E) as (usr & uevs & nu & rows & _ & _ & _ & _ & _ & _ & _ & _ & EL & _).
          assert (NO : forall e, In e (map (fun te => PRow (Some (t_ticket (fst te))) (e_pos (snd te)) (e_val (snd te))) (w_got w) ++
             map (fun e => PRow None (e_pos e) (e_val e)) (w_prev w) ++ user_log (0 <? nu)%Z (p_next P1) usr) ->
             (forall k, e <> PTooClose k) /\ (forall k, e <> PSuperseded k)).
          { intros e He. apply in_app_or in He. destruct He as [He|He].
            { apply in_map_iff in He. destruct He as (? & <- & _). split; discriminate. }
            apply in_app_or in He. destruct He as [He|He].
            { apply in_map_iff in He. destruct He as (? & <- & _). split; discriminate. }
            unfold user_log in He. destruct (0 <? nu).
            - apply in_flat_map in He. destruct He as (? & _ & [<-|[<-|[<-|[]]]]); split; discriminate.
            - apply in_map_iff in He. destruct He as (? & <- & _). split; discriminate. }
          eapply drops_more; [exact EL|exact D| |]; intros k Hk; destruct (NO _ Hk) as [N1 N2]; exfalso.
          -- now apply (N1 k).
          -- now apply (N2 k).
      + split; [intros [X _]; congruence|]. eapply drops_more; [exact (fi_log _ _ _ _ _ _ E)|exact D| |]; intros k [Hk|[Hk|[]]]; discriminate.
      + split; [intros [_ X]; congruence|exact D].
  Qed.
End Sep.

(** ** Every accurate evaluation of a proposed point is recorded *)
Lemma submitted_in log k p nz id : In (PSubmit k p nz id) log -> In k (submitted log).
Proof.
  induction log as [|e r IH]; cbn; [tauto|]. intros [->|H]; [now left|].
  destruct e; cbn; auto.
Qed.
Lemma submitted_unique log : NoDup (submitted log) -> forall k p nz id p' nz' id',
  In (PSubmit k p nz id) log -> In (PSubmit k p' nz' id') log -> p = p' /\ nz = nz' /\ id = id'.
Proof.
  induction log as [|e r IH]; cbn; [tauto|]. intros ND k p nz id p' nz' id' H1 H2.
  destruct e as [k0 p0 n0 i0| | | | |]; cbn in ND;
    try (destruct H1 as [H1|H1]; [discriminate|]; destruct H2 as [H2|H2]; [discriminate|]; eapply IH; eassumption).
  inversion ND as [|x l Hx Hl]; subst.
  destruct H1 as [H1|H1]; destruct H2 as [H2|H2].
  - injection H1 as -> -> -> ->. injection H2 as -> -> ->. auto.
  - injection H1 as -> -> -> ->. exfalso. apply Hx. eapply submitted_in; eauto.
  - injection H2 as -> -> -> ->. exfalso. apply Hx. eapply submitted_in; eauto.
  - eapply IH; eassumption.
Qed.
Lemma settled_cases log k : In k (settled log) ->
  (exists p v, In (PRow (Some k) p v) log) \/ In (PSuperseded k) log \/ In (PTooClose k) log.
Proof.
  induction log as [|e r IH]; cbn; [tauto|].
  destruct e as [| |[k0|] p v| |k0|k0]; cbn; try (intros H; destruct (IH H) as [(p' & v' & K)|[K|K]]; [left|right; left|right; right]; eauto; fail).
  - intros [<-|H]; [left; eauto|]. destruct (IH H) as [(p' & v' & K)|[K|K]]; [left|right; left|right; right]; eauto.
  - intros [<-|H]; [right; left; now left|]. destruct (IH H) as [(p' & v' & K)|[K|K]]; [left|right; left|right; right]; eauto.
  - intros [<-|H]; [right; right; now left|]. destruct (IH H) as [(p' & v' & K)|[K|K]]; [left|right; left|right; right]; eauto.
Qed.
Lemma accurate_recorded pc0 ok m P k p id : preach pc0 ok m P -> no_error m ->
  In (PSubmit k p false id) (p_log P) -> id <> SInit ->
  In k (outstanding m P) \/ exists v, In (PRow (Some k) p v) (p_log P) /\ In (PAnswer k v) (p_log P).
Proof.
  intros HR N HS Hid. pose proof (ledger_reach pc0 ok m P HR N) as L.
  assert (ND : NoDup (submitted (p_log P))) by (rewrite (lg_sub _ _ L); apply seq_NoDup).
  assert (HK : In k (outstanding m P ++ settled (p_log P))).
  { eapply Permutation_in; [apply Permutation_sym, (lg_perm _ _ L)|]. rewrite <- (lg_sub _ _ L). eapply submitted_in; eauto. }
  apply in_app_or in HK. destruct HK as [HK|HK]; [now left|right].
  destruct (sep_reach pc0 ok m P HR N) as (_ & D1 & D2).
  apply settled_cases in HK. destruct HK as [(p' & v & HK)|[HK|HK]].
  - destruct (prov_reach pc0 ok m P HR N) as (_ & _ & PR). destruct (PR _ _ _ HK) as (p1 & nz & id1 & A & B & D).
    destruct (submitted_unique _ ND _ _ _ _ _ _ _ HS A) as (-> & <- & <-).
    destruct D as [->|(D & _)]; [|congruence]. exists v. auto.
  - destruct (D2 k HK) as (p1 & id1 & A). destruct (submitted_unique _ ND _ _ _ _ _ _ _ HS A) as (_ & X & _). discriminate.
  - destruct (D1 k HK) as (p1 & nz & A). destruct (submitted_unique _ ND _ _ _ _ _ _ _ HS A) as (_ & _ & X). congruence.
Qed.
