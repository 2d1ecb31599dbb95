(** * Proofs: NaN and the bookkeeping of the best value *)
From Coq Require Import Reals Lra Lia.
From Flocq Require Import Core.
From Verif Require Export ModelFloat.

(** Extended order. *)
Inductive ext := MInf | Fin (r : R) | PInf.
Definition ext_of (x : b64) : ext :=
  match x with B754_infinity true => MInf | B754_infinity false => PInf | _ => Fin (B2R x) end.
Definition ele (a b : ext) : Prop :=
  match a, b with MInf, _ => True | _, PInf => True | Fin x, Fin y => (x <= y)%R | _, _ => False end.
Lemma leb_ext (x y : b64) : is_nan x = false -> is_nan y = false -> (Bleb x y = true <-> ele (ext_of x) (ext_of y)).
Proof.
  intros Hx Hy. destruct (is_finite x) eqn:Fx; destruct (is_finite y) eqn:Fy.
  - rewrite (Bleb_correct _ _ x y Fx Fy).
    assert (E : ele (ext_of x) (ext_of y) <-> (B2R x <= B2R y)%R).
    { destruct x as [|[|]| |]; try discriminate; destruct y as [|[|]| |]; try discriminate; reflexivity. }
    rewrite E. destruct (Rle_bool_spec (B2R x) (B2R y)); split; try tauto; try discriminate; intros; lra.
  - destruct x as [[|]|[|]| |[|]]; try discriminate; destruct y as [|[|]| |]; try discriminate; cbn; split; try tauto; discriminate.
  - destruct x as [|[|]| |]; try discriminate; destruct y as [[|]|[|]| |[|]]; try discriminate; cbn; split; try tauto; discriminate.
  - destruct x as [|[|]| |]; try discriminate; destruct y as [|[|]| |]; try discriminate; cbn; split; try tauto; discriminate.
Qed.
Lemma nan_leb (x y : b64) : is_nan x = true \/ is_nan y = true -> Bleb x y = false.
Proof. intros [H|H]; [destruct x|destruct x; destruct y]; try discriminate H; reflexivity. Qed.
Lemma nan_ltb (x y : b64) : is_nan x = true \/ is_nan y = true -> Bltb x y = false.
Proof. intros [H|H]; [destruct x|destruct x; destruct y]; try discriminate H; reflexivity. Qed.
Lemma ltb_leb (x y : b64) : is_nan x = false -> is_nan y = false -> Bltb x y = negb (Bleb y x).
Proof.
  intros Hx Hy. unfold Bltb, Bleb, SpecFloat.SFltb, SpecFloat.SFleb.
  pose proof (Bcompare_swap 53 1024 x y) as S. unfold Bcompare in S. rewrite S.
  assert (N : exists c, SpecFloat.SFcompare (B2SF x) (B2SF y) = Some c).
  { destruct x as [|[|]| |[|]]; try discriminate; destruct y as [|[|]| |[|]]; try discriminate; cbn; eauto. }
  destruct N as [c ->]. destruct c; reflexivity.
Qed.
Lemma leb_refl (x : b64) : is_nan x = false -> Bleb x x = true.
Proof. intros H. apply leb_ext; auto. destruct (ext_of x); cbn; auto. lra. Qed.
Lemma leb_trans (x y z : b64) : Bleb x y = true -> Bleb y z = true -> Bleb x z = true.
Proof.
  intros A B.
  assert (Nx : is_nan x = false) by (destruct (is_nan x) eqn:E; [rewrite nan_leb in A by tauto; discriminate|reflexivity]).
  assert (Ny : is_nan y = false) by (destruct (is_nan y) eqn:E; [rewrite nan_leb in A by tauto; discriminate|reflexivity]).
  assert (Nz : is_nan z = false) by (destruct (is_nan z) eqn:E; [rewrite nan_leb in B by tauto; discriminate|reflexivity]).
  apply leb_ext in A, B; auto. apply leb_ext; auto.
  destruct (ext_of x), (ext_of y), (ext_of z); cbn in *; auto; try tauto. lra.
Qed.
Lemma leb_total (x y : b64) : is_nan x = false -> is_nan y = false -> Bleb x y = false -> Bleb y x = true.
Proof.
  intros Nx Ny H. destruct (Bleb y x) eqn:E; [reflexivity|exfalso].
  assert (A : ~ ele (ext_of x) (ext_of y)) by (intros A; apply leb_ext in A; auto; congruence).
  assert (B : ~ ele (ext_of y) (ext_of x)) by (intros B; apply leb_ext in B; auto; congruence).
  destruct (ext_of x), (ext_of y); cbn in *; try tauto. lra.
Qed.
Lemma leb_real (x y : b64) : Bleb x y = true -> is_nan x = false /\ is_nan y = false.
Proof. intros H. split; [destruct (is_nan x) eqn:E|destruct (is_nan y) eqn:E]; try reflexivity; rewrite nan_leb in H by tauto; discriminate. Qed.

(** ** np.argmin *)
Definition has_nan (l : list b64) : Prop := exists x, In x l /\ is_nan x = true.
Lemma argmin_from_spec : forall l best bi pre, (bi < length pre)%nat -> nth bi pre fnan = best ->
  let k := argmin_from best bi (length pre) l in
  (k < length (pre ++ l))%nat /\
  ((is_nan best = true \/ has_nan l) -> is_nan (nth k (pre ++ l) fnan) = true) /\
  ((is_nan best = false /\ ~ has_nan l) -> forall x, In x (best :: l) -> Bleb (nth k (pre ++ l) fnan) x = true).
Proof.
  induction l as [|y l IH]; intros best bi pre Hb Hn; cbn [argmin_from].
  - cbv zeta. rewrite app_nil_r. split; [exact Hb|]. rewrite Hn. split.
    + intros [H|(x & [] & _)]; exact H.
    + intros (H & _) x [<-|[]]. now apply leb_refl.
  - destruct (is_nan best) eqn:NB.
    + cbv zeta. split; [rewrite app_length; lia|]. rewrite app_nth1 by exact Hb. rewrite Hn. split; [auto|]. intros (H & _). discriminate.
    + assert (A : pre ++ y :: l = (pre ++ [y]) ++ l) by now rewrite <- app_assoc. rewrite A.
      assert (L : S (length pre) = length (pre ++ [y])) by (rewrite app_length; cbn; lia). rewrite L.
      destruct (Bleb best y) eqn:LE.
      * specialize (IH best bi (pre ++ [y])). destruct IH as (I1 & I2 & I3); [rewrite app_length; cbn; lia|now rewrite app_nth1|].
        cbv zeta. split; [exact I1|]. split.
        -- intros [H|(x & [<-|Hx] & H)]; [congruence| |apply I2; right; exists x; auto].
           apply leb_real in LE. destruct LE; congruence.
        -- intros (_ & H) x Hx. assert (H' : ~ has_nan l) by (intros (z & Hz & E); apply H; exists z; split; [now right|exact E]).
           specialize (I3 (conj NB H')). destruct Hx as [<-|[<-|Hx]].
           ++ apply I3. now left.
           ++ eapply leb_trans; [apply I3; now left|exact LE].
           ++ apply I3. now right.
      * specialize (IH y (length pre) (pre ++ [y])). destruct IH as (I1 & I2 & I3); [rewrite app_length; cbn; lia|rewrite app_nth2 by lia; now rewrite Nat.sub_diag|].
        cbv zeta. split; [exact I1|]. split.
        -- intros [H|(x & [<-|Hx] & H)]; [congruence|apply I2; now left|apply I2; right; exists x; auto].
        -- intros (_ & H) x Hx. assert (H' : ~ has_nan l) by (intros (z & Hz & E); apply H; exists z; split; [now right|exact E]).
           assert (NY : is_nan y = false) by (destruct (is_nan y) eqn:E; [exfalso; apply H; exists y; split; [now left|exact E]|reflexivity]).
           specialize (I3 (conj NY H')). destruct Hx as [<-|[<-|Hx]].
           ++ eapply leb_trans; [apply I3; now left|]. now apply leb_total.
           ++ apply I3. now left.
           ++ apply I3. now right.
Qed.
Lemma fargmin_spec l : l <> [] ->
  (fargmin l < length l)%nat /\
  (has_nan l -> is_nan (nth (fargmin l) l fnan) = true) /\
  (~ has_nan l -> forall x, In x l -> Bleb (nth (fargmin l) l fnan) x = true).
Proof.
  destruct l as [|x l]; [congruence|]. intros _. unfold fargmin.
  destruct (argmin_from_spec l x 0 [x]) as (A & B & D); [cbn; lia|reflexivity|]. cbn [app length] in *.
  split; [exact A|]. split.
  - intros (z & [<-|Hz] & E); apply B; [now left|right; exists z; auto].
  - intros H y Hy. apply D; [|exact Hy]. split.
    + destruct (is_nan x) eqn:E; [exfalso; apply H; exists x; split; [now left|exact E]|reflexivity].
    + intros (z & Hz & E). apply H. exists z. split; [now right|exact E].
Qed.

(** ** Runs *)
Definition values (es : list fevent) : list b64 :=
  flat_map (fun e => match e with Sampled vs => vs | Evaluated v => [v] end) es.
Lemma fstep_all s e : all_val (fstep s e) = all_val s ++ (match e with Sampled vs => vs | Evaluated v => [v] end).
Proof. destruct e; reflexivity. Qed.
Lemma run_all_gen : forall es s, all_val (fold_left fstep es s) = all_val s ++ values es.
Proof.
  induction es as [|e es IH]; intros s; cbn [fold_left values flat_map]; [now rewrite app_nil_r|].
  rewrite IH, fstep_all, <- app_assoc. reflexivity.
Qed.
Lemma run_all es : all_val (frun es) = values es.
Proof. unfold frun. rewrite run_all_gen. reflexivity. Qed.

Lemma nan_returned es : has_nan (values es) -> is_nan (freturned (frun es)) = true.
Proof.
  intros H. unfold freturned. rewrite run_all.
  assert (NE : values es <> []) by (destruct H as (x & Hx & _); intros E; rewrite E in Hx; destruct Hx).
  now apply fargmin_spec.
Qed.
Lemma returned_min es : values es <> [] -> ~ has_nan (values es) ->
  In (freturned (frun es)) (values es) /\ forall v, In v (values es) -> Bleb (freturned (frun es)) v = true.
Proof.
  intros NE H. unfold freturned. rewrite run_all. destruct (fargmin_spec _ NE) as (A & _ & B). split; [now apply nth_In|auto].
Qed.

(** Invariant of the internal best value: below every real value, and equal to one of them as
    soon as there is one. *)
Definition best_ok (s : fstate) : Prop :=
  is_nan (fbest s) = false /\
  (forall v, In v (all_val s) -> is_nan v = false -> Bleb (fbest s) v = true) /\
  ((exists v, In v (all_val s) /\ Bleb v (fbest s) = true) \/ fbest s = finf).
Lemma leb_pinf (v : b64) : is_nan v = false -> Bleb v finf = true.
Proof. intros H. apply leb_ext; auto. destruct (ext_of v); exact I. Qed.
Lemma merge_best s vs m : best_ok s ->
  (forall v, In v vs -> is_nan v = false -> In m vs /\ Bleb m v = true) ->
  (is_nan m = false -> In m vs) ->
  forall s', fbest s' = (if Bltb m (fbest s) then m else fbest s) -> all_val s' = all_val s ++ vs -> best_ok s'.
Proof.
  intros (B1 & B2 & B3) Hm Hin s' E1 E2. unfold best_ok. rewrite E1, E2.
  destruct (Bltb m (fbest s)) eqn:LT.
  - assert (NM : is_nan m = false) by (destruct (is_nan m) eqn:E; [rewrite nan_ltb in LT by tauto; discriminate|reflexivity]).
    rewrite (ltb_leb m (fbest s) NM B1) in LT. apply negb_true_iff in LT. pose proof (leb_total _ _ B1 NM LT) as LE.
    split; [exact NM|]. split.
    + intros v Hv Nv. apply in_app_or in Hv. destruct Hv as [Hv|Hv].
      * eapply leb_trans; [exact LE|auto].
      * now apply Hm.
    + left. exists m. split; [apply in_or_app; right; auto|now apply leb_refl].
  - split; [exact B1|]. split.
    + intros v Hv Nv. apply in_app_or in Hv. destruct Hv as [Hv|Hv]; [auto|].
      destruct (Hm v Hv Nv) as (_ & H). destruct (leb_real _ _ H) as (NM & _).
      rewrite (ltb_leb m (fbest s) NM B1) in LT. apply negb_false_iff in LT. eapply leb_trans; eauto.
    + destruct B3 as [(w & Hw & Ew)|B3]; [left; exists w; split; [apply in_or_app; now left|exact Ew]|now right].
Qed.
Lemma step_best s e : best_ok s -> (forall vs, e = Sampled vs -> ~ has_nan vs) -> best_ok (fstep s e).
Proof.
  intros B H. destruct e as [vs|v].
  - destruct vs as [|x vs'].
    + eapply (merge_best s [] fnan); [exact B|intros v []|discriminate|reflexivity|reflexivity].
    + set (vs := x :: vs') in *. assert (NE : vs <> []) by discriminate. specialize (H vs eq_refl). destruct (fargmin_spec vs NE) as (A1 & _ & A2).
      eapply (merge_best s vs (nth (fargmin vs) vs fnan)); [exact B| | |reflexivity|reflexivity].
      * intros v Hv _. split; [now apply nth_In|auto].
      * intros _. now apply nth_In.
  - eapply (merge_best s [v] v); [exact B| | |reflexivity|reflexivity].
    + intros w [<-|[]] N. split; [now left|now apply leb_refl].
    + intros _. now left.
Qed.
Lemma run_best_gen : forall es s, best_ok s -> (forall vs, In (Sampled vs) es -> ~ has_nan vs) -> best_ok (fold_left fstep es s).
Proof.
  induction es as [|e es IH]; intros s B H; [exact B|]. cbn [fold_left]. apply IH.
  - apply step_best; [exact B|]. intros vs ->. apply H. now left.
  - intros vs Hv. apply H. now right.
Qed.
Lemma start_best : best_ok fstart.
Proof. split; [reflexivity|]. split; [intros v []|now right]. Qed.
Lemma internal_best es : (forall vs, In (Sampled vs) es -> ~ has_nan vs) -> (exists v, In v (values es) /\ is_nan v = false) ->
  (forall v, In v (values es) -> is_nan v = false -> Bleb (fbest (frun es)) v = true) /\
  exists v, In v (values es) /\ Beqb v (fbest (frun es)) = true.
Proof.
  intros H (r & Hr & Nr). destruct (run_best_gen es fstart start_best H) as (B1 & B2 & B3). fold (frun es) in *.
  rewrite run_all in *. split; [exact B2|].
  assert (EQ : forall v, In v (values es) -> Bleb v (fbest (frun es)) = true -> Beqb v (fbest (frun es)) = true).
  { intros v Hv LE. destruct (leb_real _ _ LE) as (Nv & _). pose proof (B2 v Hv Nv) as LE'. clear - LE LE' Nv B1.
    assert (C : exists c, SpecFloat.SFcompare (B2SF v) (B2SF (fbest (frun es))) = Some c).
    { destruct v as [|[|]| |[|]]; try discriminate; destruct (fbest (frun es)) as [|[|]| |[|]]; try discriminate; cbn; eauto. }
    destruct C as [c C]. unfold Beqb, Bleb, SpecFloat.SFeqb, SpecFloat.SFleb in *. rewrite C in *.
    pose proof (Bcompare_swap 53 1024 v (fbest (frun es))) as S. unfold Bcompare in S. rewrite S, C in LE'. destruct c; auto; discriminate. }
  destruct B3 as [(w & Hw & Ew)|B3].
  - exists w. auto.
  - exists r. split; [exact Hr|]. apply EQ; [exact Hr|]. rewrite B3. now apply leb_pinf.
Qed.

(** A NaN in a starting sample. *)
Definition blind (s : fstate) : Prop := is_nan (fmin s) = true /\ is_nan (fmax s) = true.
Lemma fold_max_nan : forall l m, is_nan m = true \/ has_nan l ->
  is_nan (fold_left (fun m y => if is_nan m then m else if is_nan y then y else if Bltb m y then y else m) l m) = true.
Proof.
  induction l as [|y l IH]; intros m H; cbn [fold_left].
  - destruct H as [H|(x & [] & _)]. exact H.
  - apply IH. destruct H as [H|(x & [<-|Hx] & E)].
    + left. now rewrite H.
    + left. destruct (is_nan m) eqn:NM; [exact NM|]. now rewrite E.
    + right. exists x. auto.
Qed.
Lemma sampled_nan s vs : has_nan vs -> blind (frestart vs s) /\ fbest (frestart vs s) = fbest s /\
  fbest_index (frestart vs s) = fbest_index s.
Proof.
  intros H. assert (NE : vs <> []) by (destruct H as (x & Hx & _); intros ->; destruct Hx).
  destruct (fargmin_spec vs NE) as (_ & A & _). specialize (A H). unfold frestart, blind. cbn [fmin fmax fbest fbest_index].
  rewrite nan_ltb by tauto. repeat split; [exact A|]. unfold fmaximum. destruct vs as [|x l]; [congruence|].
  apply fold_max_nan. destruct H as (z & [<-|Hz] & E); [now left|right; exists z; auto].
Qed.
Lemma blind_stays : forall vs s, blind s -> let s' := fold_left fstep (map Evaluated vs) s in
  blind s' /\ fmin_index s' = fmin_index s.
Proof.
  induction vs as [|v vs IH]; intros s (B1 & B2); cbn [map fold_left]; [split; [split; assumption|reflexivity]|].
  assert (B : blind (fstep s (Evaluated v)) /\ fmin_index (fstep s (Evaluated v)) = fmin_index s).
  { cbn [fstep]. unfold fadd_node, blind. cbn [fmin fmax fmin_index]. rewrite nan_ltb by tauto. unfold pymax. rewrite nan_ltb by tauto. auto. }
  destruct B as (B & E). destruct (IH _ B) as (I1 & I2). cbv zeta. split; [exact I1|]. rewrite I2. exact E.
Qed.
