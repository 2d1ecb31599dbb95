(** * The inverse matrix, with and without categorical variables. *)
From Verif Require Export AuxProofs.
From Coq Require Import Lra Lia.
Open Scope R_scope.

Lemma zero_tiny_id eps M : entries_not_tiny eps M -> zero_tiny eps M = M.
Proof.
  intros H. unfold zero_tiny. rewrite <- (map_id M) at 2. apply map_ext_in. intros r Hr.
  rewrite <- (map_id r) at 2. apply map_ext_in. intros a Ha. unfold zero_tiny1.
  destruct (Rltb (Rabs a) eps) eqn:E; auto. apply Rltb_lt in E. destruct (H r a Hr Ha); lra.
Qed.

Lemma unmasked_rows_length full m : forall M, length (unmasked_rows full m M) = length m.
Proof. induction m as [|[] m IH]; intros [|r M]; cbn; rewrite ?IH; auto. Qed.
Lemma unmasked_rows_in full m : forall M r, In r (unmasked_rows full m M) -> length r = length full.
Proof.
  induction m as [|[] m IH]; intros [|r0 M] r H; cbn in H; try tauto;
    (destruct H as [<-|H]; [|apply (IH _ _ H)]); rewrite ?unmasked_length; auto; unfold zeros; apply repeat_length.
Qed.
Lemma masked_mat_vec full m : forall M v, length M = count_true m -> length v = length full ->
  (forall r, In r M -> length r = count_true full) ->
  mat_vec (unmasked_rows full m M) v = unmasked m (mat_vec M (masked full v)).
Proof.
  induction m as [|[] m IH]; intros [|r M] v HM Hv Hr; cbn in HM |- *; try discriminate; auto.
  - f_equal; [rewrite rdot_comm, rdot_unmasked by (auto; apply Hr; left; auto); apply rdot_comm|].
    apply IH; auto; intros; apply Hr; right; auto.
  - f_equal; [apply rdot_zeros|]. apply (IH []); auto.
  - f_equal; [apply rdot_zeros|]. apply (IH (r :: M)); auto.
Qed.

(** A vector that is zero outside the mask. *)
Lemma unmask_mask m : forall w, length w = length m -> (forall i, nth i m true = false -> nth i w 0 = 0) ->
  unmasked m (masked m w) = w.
Proof.
  induction m as [|[] m IH]; intros [|a w] Hl Hz; cbn in *; try discriminate; auto.
  - f_equal. apply IH; [lia|]. intros i. apply (Hz (S i)).
  - f_equal; [symmetry; apply (Hz 0%nat); auto|]. apply IH; [lia|]. intros i. apply (Hz (S i)).
Qed.
Lemma masked_map {A B} (f : A -> B) m : forall l, masked m (map f l) = map f (masked m l).
Proof. induction m as [|[] m IH]; intros [|a l]; cbn; auto. f_equal; auto. Qed.
Lemma masked_in {A} m : forall (l : list A) x, In x (masked m l) -> In x l.
Proof. induction m as [|[] m IH]; intros [|a l] x H; cbn in *; try tauto; [destruct H; [auto|right; auto]|right; auto]. Qed.
Lemma masked_system m (A : mat) w : length w = length m -> (forall r, In r A -> length r = length m) ->
  (forall i, nth i m true = false -> nth i w 0 = 0) ->
  mat_vec (masked m (map (masked m) A)) (masked m w) = masked m (mat_vec A w).
Proof.
  intros Hw HA Hz. rewrite masked_map. unfold mat_vec. rewrite masked_map, map_map. apply map_ext_in.
  intros r Hr. apply masked_in in Hr.
  rewrite <- (rdot_unmasked m r (masked m w)) by (auto; apply masked_length; auto).
  rewrite unmask_mask by auto. reflexivity.
Qed.

Lemma unmasked_zero_row full q : forall i M0, nth i q true = false ->
  zeros (length full) = nth i (unmasked_rows full q M0) [].
Proof. induction q as [|[] q IH]; intros [|i] [|r M0] H; cbn in *; auto; discriminate. Qed.
Lemma unmasked_zero q : forall row i, nth i q true = false -> nth i (unmasked q row) 0 = 0.
Proof. induction q as [|[] q IH]; intros [|c row] [|i'] H; cbn in *; auto; discriminate. Qed.
Lemma unmasked_zero_col full i : nth i full true = false -> forall q j M0, nth i (nth j (unmasked_rows full q M0) []) 0 = 0.
Proof.
  intros H. induction q as [|[] q IH]; intros [|j] [|r M0]; cbn [unmasked_rows nth]; auto;
    try (destruct i; reflexivity); try apply nth_zeros; try (apply unmasked_zero; auto).
Qed.

Section Inverse.
  Variables (inv : mat -> option mat) (kind : rbf_kind) (gamma eps : R) (n : nat) (nodes : list rpoint)
            (exps : list (list nat)) (M : mat).
  Hypothesis Hinv : correct_inverse inv.
  Hypothesis Hd : in_dimension n nodes.
  Local Notation A := (rbf_matrix_exact kind gamma n nodes).
  Local Notation k := (length nodes).
  Local Notation p := (size_P kind n).
  Hypothesis HM : get_matrix_inverse inv kind eps n k A exps = Some M.

  Lemma inverse_plain : reduces p n exps = false ->
    (forall M0, inv A = Some M0 -> entries_not_tiny eps M0) -> undoes M A.
  Proof.
    intros Hr Ht. unfold get_matrix_inverse in HM. rewrite Hr in HM. destruct (inv A) as [M0|] eqn:E; [|discriminate].
    cbn in HM. injection HM as <-. rewrite zero_tiny_id by (apply Ht; auto). apply Hinv; auto.
  Qed.

  Local Notation m := (column_mask (length A) k exps).
  Local Notation Am := (masked m (map (masked m) A)).
  Hypothesis Hr : reduces p n exps = true.
  Hypothesis Ht : forall M0, inv Am = Some M0 -> entries_not_tiny eps M0.

  Lemma embed_tiny mask M0 : entries_not_tiny eps M0 -> entries_not_tiny eps (embed mask M0).
  Proof.
    intros H r a Hrow Ha. unfold embed in Hrow.
    assert (U : forall q row, (forall b, In b row -> b = 0 \/ eps <= Rabs b) -> forall b, In b (unmasked q row) -> b = 0 \/ eps <= Rabs b).
    { induction q as [|[] q IH]; intros [|c row] Hq b Hb; cbn in Hb; try tauto.
      - destruct Hb as [<-|Hb]; auto. apply (IH [] ltac:(cbn; tauto) b Hb).
      - destruct Hb as [<-|Hb]; [apply Hq; left; auto|]. apply (IH row); auto. intros; apply Hq; right; auto.
      - destruct Hb as [<-|Hb]; auto. apply (IH [] ltac:(cbn; tauto) b Hb).
      - destruct Hb as [<-|Hb]; auto. apply (IH (c :: row)); auto. }
    assert (Z : forall q b, In b (zeros q) -> b = 0) by (intros q b Hb; unfold zeros in Hb; apply repeat_spec in Hb; auto).
    revert Hrow H. generalize mask at 1 as full. intros full. revert M0.
    induction mask as [|[] q IH]; intros [|row M0] Hrow H; cbn in Hrow; try tauto.
    - destruct Hrow as [<-|Hrow]; [left; eapply Z; eauto|]. apply (IH [] Hrow). intros ? ? [].
    - destruct Hrow as [<-|Hrow].
      + apply (U full row); auto. intros b Hb. apply (H row); auto. left; auto.
      + apply (IH M0 Hrow). intros r' a' Hr' Ha'. apply (H r'); auto. right; auto.
    - destruct Hrow as [<-|Hrow]; [left; eapply Z; eauto|]. apply (IH [] Hrow). intros ? ? [].
    - destruct Hrow as [<-|Hrow]; [left; eapply Z; eauto|]. apply (IH (row :: M0) Hrow). auto.
  Qed.

  Lemma inverse_reduced : exists M0, inv Am = Some M0 /\ M = embed m M0 /\ undoes M0 Am.
  Proof.
    unfold get_matrix_inverse in HM. rewrite Hr in HM. destruct (inv Am) as [M0|] eqn:E; [|discriminate].
    cbn in HM. injection HM as <-. exists M0. split; auto. split; [|apply Hinv; auto].
    apply zero_tiny_id, embed_tiny, Ht; auto.
  Qed.
  Lemma mask_length : length m = (k + p)%nat.
  Proof. rewrite column_mask_length. apply exact_length; auto. Qed.
  Lemma A_rows r : In r A -> length r = length m.
  Proof.
    intros H. apply (In_nth _ _ []) in H. destruct H as (i & Hi & <-). rewrite mask_length.
    apply exact_row_length; auto. rewrite <- (exact_length kind gamma n nodes) by auto. exact Hi.
  Qed.
  Lemma Am_length : length Am = count_true m.
  Proof. apply masked_length. rewrite map_length, column_mask_length. auto. Qed.
  Lemma M_shape : length M = (k + p)%nat /\ forall r, In r M -> length r = (k + p)%nat.
  Proof.
    destruct inverse_reduced as (M0 & _ & -> & _). unfold embed. rewrite unmasked_rows_length, mask_length. split; auto.
    intros r Hrow. rewrite (unmasked_rows_in _ _ _ _ Hrow). apply mask_length.
  Qed.

  (** [M] undoes [A] on the vectors that do not use the dropped coordinates, up to the dropped
      coordinates of the right-hand side. *)
  Lemma reduced_undoes w : length w = (k + p)%nat -> (forall e, In e exps -> nth (k + last e 0%nat) w 0 = 0) ->
    mat_vec M (mat_vec A w) = w.
  Proof.
    intros Hw Hz. destruct inverse_reduced as (M0 & _ & -> & (U1 & U2 & U3)). unfold embed.
    rewrite Am_length in *.
    rewrite masked_mat_vec; auto.
    2:{ unfold mat_vec. rewrite map_length, column_mask_length. auto. }
    assert (Z : forall i, nth i m true = false -> nth i w 0 = 0).
    { intros i Hi. assert (Li : (i < length A)%nat).
      { destruct (Nat.lt_ge_cases i (length A)); auto. rewrite nth_overflow in Hi by (rewrite column_mask_length; auto). discriminate. }
      apply column_mask_false in Hi; auto. destruct Hi as (e & He & ->). auto. }
    rewrite <- masked_system; [|rewrite mask_length; auto|apply A_rows|exact Z].
    rewrite U3 by (apply masked_length; rewrite mask_length; auto).
    apply unmask_mask; [rewrite mask_length; auto|exact Z].
  Qed.
  Lemma reduced_zero i : (exists e, In e exps /\ i = (k + last e 0%nat)%nat) -> (i < k + p)%nat ->
    forall j, ent M i j = 0 /\ ent M j i = 0.
  Proof.
    intros He Hi j. destruct inverse_reduced as (M0 & _ & -> & (U1 & U2 & _)).
    assert (Hm : nth i m true = false) by (apply column_mask_false; auto; rewrite exact_length by auto; auto).
    split; unfold ent, embed.
    - rewrite <- (unmasked_zero_row m m i M0 Hm). apply nth_zeros.
    - apply unmasked_zero_col; auto.
  Qed.

  Lemma reduced_cardinal x lam mm h : length x = n ->
    interpolates kind gamma n (nodes ++ [x]) (zeros k ++ [1]) (lam ++ [mm]) h ->
    (forall e, In e exps -> nth (last e 0%nat) h 0 = 0) ->
    mm * (rbf_function kind gamma 0 - quad_form M (u_pi kind gamma nodes x)) = 1.
  Proof.
    intros Hx H Hz. destruct (cardinal_system kind gamma n nodes x Hd Hx lam mm h H) as (Lw & E1 & E2).
    destruct (interpolates_tail_len _ _ _ _ _ _ _ H) as [Hl Hh]. rewrite !app_length in Hl. cbn in Hl.
    destruct M_shape as [S1 S2].
    assert (E3 : mat_vec M (mat_vec A (lam ++ h)) = lam ++ h).
    { apply reduced_undoes; auto. intros e He. rewrite app_nth2 by lia. replace (k + last e 0 - length lam)%nat with (last e 0)%nat by lia. auto. }
    rewrite E1, mat_vec_scale in E3. rewrite <- E3, rdot_scale_r in E2.
    rewrite quad_form_dot by (rewrite (u_pi_length kind gamma n) by auto; auto). lra.
  Qed.
End Inverse.
