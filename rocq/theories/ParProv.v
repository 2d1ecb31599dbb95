(** * Provenance of recorded values, alignment and incumbents in parallel mode, permanent
      states. *)
From Verif Require Export ParBudget AlgProv AlgBox.
Open Scope Z_scope.

(** ** C72 / C77: where a value was computed and where it is recorded *)
Definition sub_ev (t : task) : pev := PSubmit (t_ticket t) (t_at t) (t_noisy t) (t_id t).
Definition place_ok (c : cfg) (t : task) : Prop :=
  to_orig c (t_pos t) = t_at t \/ t_id t = SInit /\ t_pos t = t_at t.
Definition row_ok (c : cfg) (log : list pev) (k : nat) (p : point) (v : Q) : Prop :=
  exists p' nz id, In (PSubmit k p' nz id) log /\ In (PAnswer k v) log /\
    (p = p' \/ id = SInit /\ p = to_orig c p').
Definition prov_inv (c : cfg) (m : pc) (P : pst) : Prop :=
  (forall t, In t (pend (p_k P)) -> In (sub_ev t) (p_log P) /\ place_ok c t) /\
  (forall kind w, m = PcWait kind w ->
     (forall t, In t (w_pend w) -> In (sub_ev t) (p_log P) /\ t_at t = t_pos t /\ t_id t = SInit) /\
     (forall t e, In (t, e) (w_got w) -> In (sub_ev t) (p_log P) /\ In (PAnswer (t_ticket t) (e_val e)) (p_log P) /\
        e_pos e = t_at t)) /\
  (forall k p v, In (PRow (Some k) p v) (p_log P) -> row_ok c (p_log P) k p v).

Lemma row_more c log es k p v : row_ok c log k p v -> row_ok c (log ++ es) k p v.
Proof.
  intros (p' & nz & id & A & B & D). exists p', nz, id. split; [|split]; auto; apply in_or_app; auto.
Qed.
Lemma in_delete {A} (l : list A) : forall j x, In x (delete_at j l) -> In x l.
Proof. induction l as [|y r IH]; intros [|j] x H; cbn in *; auto. destruct H as [->|H]; eauto. Qed.

(** A step that only extends the log by events [es] which contain no foreign row, keeping
    or removing tasks. *)
Lemma prov_row c t v log es : In (sub_ev t) log -> place_ok c t -> In (PAnswer (t_ticket t) v) es ->
  row_ok c (log ++ es) (t_ticket t) (to_orig c (t_pos t)) v.
Proof.
  intros H1 H2 H3. exists (t_at t), (t_noisy t), (t_id t). split; [|split].
  - apply in_or_app. now left.
  - apply in_or_app. now right.
  - destruct H2 as [H2|[H2 H3']]; [now left|right]. split; congruence.
Qed.

Ltac log_rows H3 Hin :=
  apply in_app_or in Hin; destruct Hin as [Hin|Hin]; [apply row_more; eauto|].

Lemma prov_eval c q j P P' b : eval_eff_par c q j P P' -> prov_inv c (PcEvals b) P -> prov_inv c (PcEvals b) P'.
Proof.
  intros E (H1 & _ & H3).
  assert (HD : forall t es, In t (delete_at j (pend (p_k P))) -> In (sub_ev t) (p_log P ++ es) /\ place_ok c t).
  { intros t es Ht. apply in_delete in Ht. destruct (H1 t Ht) as [A B]. split; [apply in_or_app; auto|exact B]. }
  destruct E as [t v el eu Ht Ea Nr Es Ecv En El Ek|t v el eu Ht Ea Hn Nr Hx Es Ecv En El Ek|t v el eu t' Ht Ea Hn Ht' Nr Hr Q It Ecv En El Ek|t v el eu Ht Ea Nr Hne Hr Q It Ecv En El SL Eb Elc];
    (split; [|split; [discriminate|]]).
  - rewrite Ek, El. destruct (popped_pend j (t_noisy t) (el, eu) (p_k P)) as (-> & _). auto.
  - rewrite El. intros k p w Hin. log_rows H3 Hin. destruct Hin as [Hin|[Hin|[]]]; discriminate.
  - rewrite Ek, El. cbn [pend k_tabu]. destruct (popped_pend j true (el, eu) (p_k P)) as (-> & _). auto.
  - rewrite El. intros k p w Hin. log_rows H3 Hin. destruct Hin as [Hin|[Hin|[]]]; discriminate.
  - rewrite Ek, El. cbn [pend k_push]. destruct (popped_pend j true (el, eu) (p_k P)) as (-> & _).
    intros u Hu. apply in_app_or in Hu. destruct Hu as [Hu|[<-|[]]]; [auto|]. subst t'. split.
    + apply in_or_app. right. right. right. now left.
    + left. reflexivity.
  - rewrite El. intros k p w Hin. log_rows H3 Hin. destruct Hin as [Hin|[Hin|[Hin|[]]]]; discriminate.
  - rewrite (sl_pend _ _ SL), El. destruct (popped_pend j (t_noisy t) (el, eu) (p_k P)) as (-> & _). auto.
  - rewrite El. intros k p w Hin. log_rows H3 Hin.
    destruct Hin as [Hin|[Hin|[]]]; [discriminate|]. injection Hin as <- <- <-.
    apply nth_error_In in Ht. destruct (H1 t Ht) as [A B]. apply prov_row; auto. now left.
Qed.

Lemma prov_search c q j P P' : search_eff_par c q j P P' -> prov_inv c PcSearches P -> prov_inv c PcSearches P'.
Proof.
  intros E (H1 & _ & H3).
  destruct E as [e P1 He E1 ->|e p id P1 P2 He Hp E1 R U Hid Hz].
  - pose proof (discard_lists c (s_id e) P1) as SL.
    split; [|split; [discriminate|]].
    + rewrite (sl_pend _ _ SL). replace (p_log (discard_search c (s_id e) P1)) with (p_log P1) by (destruct (s_id e); reflexivity).
      subst P1. exact H1.
    + replace (p_log (discard_search c (s_id e) P1)) with (p_log P1) by (destruct (s_id e); reflexivity).
      subst P1. exact H3.
  - assert (X : prov_inv c PcSearches P2).
    { subst P1. destruct R as [->|_ ->|jj s' _ Hr Es _ _ El Ek].
      - split; [exact H1|split; [discriminate|exact H3]].
      - split; [exact H1|split; [discriminate|exact H3]].
      - split; [|split; [discriminate|]]; rewrite El.
        + replace (pend (p_k P2)) with (pend (p_k P)) by (destruct Ek as [->| ->]; reflexivity).
          intros t Ht. destruct (H1 t Ht). split; [apply in_or_app; auto|auto].
        + intros k pp w Hin. log_rows H3 Hin. destruct Hin as [Hin|[]]; discriminate. }
    destruct X as (X1 & _ & X3).
    destruct U as [Q1 It Ecv En El SL Eb Elc|pp po jj v nz ee Ep Epo Hne N1 N2 Hl Hv Hzz Hee Q1 It Ecv En El SL Eb Elc|pp po Ep Epo Hne N1 N2 ->].
    + split; [|split; [discriminate|]]; rewrite El; [rewrite (sl_pend _ _ SL)|]; auto.
    + split; [|split; [discriminate|]]; rewrite El.
      * rewrite (sl_pend _ _ SL). intros t Ht. destruct (X1 t Ht). split; [apply in_or_app; auto|auto].
      * intros k p1 w Hin. log_rows X3 Hin. destruct Hin as [Hin|[]]; discriminate.
    + unfold submit_point. split; [|split; [discriminate|]]; cbn [p_k p_s p_log note set_next set_k set_s pend k_push].
      * intros t Ht. apply in_app_or in Ht. destruct Ht as [Ht|[<-|[]]].
        -- destruct (X1 t Ht). split; [apply in_or_app; auto|auto].
        -- split; [apply in_or_app; right; now left|]. left. cbn. symmetry. exact Epo.
      * intros k p1 w Hin. log_rows X3 Hin. destruct Hin as [Hin|[]]; discriminate.
Qed.

Lemma in_sub_log ts e : In e (map (fun t => PSubmit (t_ticket t) (t_at t) (t_noisy t) (t_id t)) ts) ->
  exists t, In t ts /\ e = sub_ev t.
Proof. intros H. apply in_map_iff in H. destruct H as (t & <- & H). exists t. auto. Qed.

Lemma prov_begin c q kind P w P' : begin_eff c q kind P w P' -> pend (p_k P) = [] ->
  (forall k p v, In (PRow (Some k) p v) (p_log P) -> row_ok c (p_log P) k p v) ->
  prov_inv c (PcWait kind w) P'.
Proof.
  intros [(new & prev & nb & W1 & W2 & _ & _ & _ & _ & _ & _ & _ & _ & _ & _ & _ & EL & _) _ Ek] Hp H3.
  split; [|split].
  - rewrite Ek, Hp. intros t [].
  - intros k2 w2 E2. injection E2 as <- <-. split.
    + intros t Ht. rewrite EL. split.
      * apply in_or_app. right. apply in_map_iff. exists t. auto.
      * rewrite W1 in Ht. destruct (submit_from_spec nb new (p_next P)) as (_ & _ & F).
        rewrite Forall_forall in F. destruct (F t Ht) as (_ & A & B). auto.
    + rewrite W2. intros t e [].
  - rewrite EL. intros k p v Hin. log_rows H3 Hin. apply in_sub_log in Hin. destruct Hin as (t & _ & E). discriminate.
Qed.

Lemma in_indexed {A} (l : list A) : forall i k x, In (k, x) (indexed i l) -> In x l.
Proof. induction l as [|y r IH]; intros i k x H; cbn in *; auto. destruct H as [H|H]; [injection H as _ ->; auto|right; eauto]. Qed.

Lemma prov_reach pc0 ok m P : preach pc0 ok m P -> no_error m -> prov_inv (base pc0) m P.
Proof.
  apply (preach_inv2 pc0 ok (prov_inv (base pc0))).
  - intros q pa m1 P1 _ [w It -> B|It -> Es El En SL Eb Ei Ep Eg].
    + eapply prov_begin; [exact B|reflexivity|]. intros k p v [].
    + split; [|split; [discriminate|]].
      * rewrite (sl_pend _ _ SL). intros t [].
      * rewrite El. intros k p v [].
  - intros q pa P0 m1 P1 _ (H1 & _ & H3) Hp [w It -> B|It -> Es El En SL Eb Ei Ep Eg].
    + eapply prov_begin; [exact B|reflexivity|]. exact H3.
    + split; [|split; [discriminate|]].
      * rewrite (sl_pend _ _ SL). intros t [].
      * rewrite El. exact H3.
  - intros q m1 P1 m2 P2 Hq (H1 & H2 & H3) HR N (WI & WD) WT [-> -> -> _| -> -> -> _|b -> -> Hm| -> -> Hm| -> -> ->|kind w w' -> -> -> Ew Hw|b j -> -> E|j -> -> E|Hm E|j kind w w' -> -> E|kind w -> E|t r -> -> Ep E| -> -> Ep ->];
      try (split; [exact H1|split; [discriminate|exact H3]]).
    + split; [exact H1|split; [|exact H3]]. destruct Hm as [(-> & _)|(-> & _)]; discriminate.
    + split; [exact H1|split; [|exact H3]]. destruct Hm as [(-> & _)|(-> & _)]; discriminate.
    + split; [exact H1|split; [|exact H3]]. intros k2 w2 E2. injection E2 as <- <-. subst w'. exact (H2 _ _ eq_refl).
    + eapply prov_eval; [exact E|]. split; [exact H1|split; [discriminate|exact H3]].
    + eapply prov_search; [exact E|]. split; [exact H1|split; [discriminate|exact H3]].
    + destruct E as [k' Hm' Q1 It En El Ek SL Eb Elc|id bad k' -> Q1 It En El Ek I1 I2 SL Eb Eb2 Elc|kind w P0 Hk -> Hi Q1 It En El Ek B].
      * split; [|split]; rewrite ?El; auto; [rewrite Ek, (sl_pend _ _ SL); exact H1|].
        destruct Hm' as [->| ->]; discriminate.
      * split; [|split]; rewrite ?El; auto; [rewrite Ek, (sl_pend _ _ SL); exact H1|discriminate].
      * apply idle_iff in Hi. destruct Hi as [Hi1 Hi2].
        eapply prov_begin; [exact B|rewrite Ek; exact Hi1|]. rewrite El. exact H3.
    + destruct (H2 _ _ eq_refl) as (G1 & G2).
      destruct E as [(t & v & el & eu & Ht & Ea & W1 & W2 & W3 & W4 & EL) Es Ecv En Ek].
      split; [|split].
      * rewrite Ek. destruct (WI _ _ eq_refl) as [-> _]. intros u [].
      * intros k2 w2 E2. injection E2 as <- <-. rewrite W1, W2, EL. split.
        { intros u Hu. apply in_delete in Hu. destruct (G1 u Hu). split; [apply in_or_app; auto|auto]. }
        intros u e Hu. apply in_app_or in Hu. destruct Hu as [Hu|[Hu|[]]].
        { destruct (G2 u e Hu) as (A1 & A2 & A3). split; [|split]; auto; apply in_or_app; auto. }
        injection Hu as <- <-. apply nth_error_In in Ht. destruct (G1 t Ht) as (A1 & A2 & A3).
        split; [apply in_or_app; auto|]. split; [apply in_or_app; right; now left|]. cbn. auto.
      * rewrite EL. intros k p w0 Hin. log_rows H3 Hin. destruct Hin as [Hin|[]]; discriminate.
    + destruct (H2 _ _ eq_refl) as (G1 & G2). pose proof (fe_m _ _ _ _ _ _ _ E) as Em.
      assert (Hm2 : not_wait m2) by (destruct kind; subst m2; discriminate).
      destruct (fe_ex _ _ _ _ _ _ _ E) as (usr & uevs & nu & rows & _ & _ & _ & _ & _ & _ & _ & _ & EL & _).
      split; [|split; [intros k2 w2 E2; exfalso; eapply Hm2; exact E2|]].
      * rewrite (fe_pend _ _ _ _ _ _ _ E), EL. intros u Hu. destruct (G1 u Hu) as (A1 & A2 & A3).
        split; [apply in_or_app; auto|]. right. auto.
      * rewrite EL. intros k p v Hin.
        apply in_app_or in Hin. destruct Hin as [Hin|Hin]; [apply row_more; auto|].
        apply in_app_or in Hin. destruct Hin as [Hin|Hin].
        { apply row_more. apply in_map_iff in Hin. destruct Hin as ([u e] & Hk & Hin). cbn [fst snd] in Hk.
          injection Hk as <- <- <-. destruct (G2 u e Hin) as (A1 & A2 & A3).
          exists (t_at u), (t_noisy u), (t_id u). split; [exact A1|]. split; [exact A2|]. left. exact A3. }
        apply in_app_or in Hin. destruct Hin as [Hin|Hin].
        { apply in_map_iff in Hin. destruct Hin as (e & Hk & _). discriminate. }
        unfold user_log in Hin |- *. destruct (0 <? nu).
        2: { apply in_map_iff in Hin. destruct Hin as (e & Hk & _). discriminate. }
        apply in_flat_map in Hin. destruct Hin as ([i e] & Hi & [Hk|[Hk|[Hk|[]]]]); try discriminate.
        cbn [fst snd] in Hk. injection Hk as <- <- <-.
        exists (e_pos e), false, SInit. split; [|split; [|now left]].
        -- do 3 (apply in_or_app; right). apply in_flat_map. exists (i, e). split; [exact Hi|]. now left.
        -- do 3 (apply in_or_app; right). apply in_flat_map. exists (i, e). split; [exact Hi|]. right. now left.
    + destruct E as [Ft Fne Fs Fit Fn Fl Fp Fsr Fb].
      split; [|split; [discriminate|]].
      * rewrite Fp, Fl. intros u Hu. destruct (H1 u) as [A B]; [rewrite Ep; now right|]. split; [apply in_or_app; auto|auto].
      * rewrite Fl. intros k p v Hin. log_rows H3 Hin. destruct Hin as [Hin|[Hin|[]]]; [discriminate|].
        injection Hin as <- <- <-. destruct (H1 t) as [A B]; [rewrite Ep; now left|]. apply prov_row; auto. now left.
Qed.
