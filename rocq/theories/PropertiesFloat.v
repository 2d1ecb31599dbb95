(** * Properties in double arithmetic (C30, C80) *)
From Coq Require Import Reals Lra Lia.
From Flocq Require Import Core.
From Verif Require Import FloatProofs NanProofs.

(** A double written as [m * 2^e]. *)
Definition dbl (s : bool) (m : positive) (e : Z) (H : SpecFloat.bounded 53 1024 m e = true) : b64 := B754_finite s m e H.
(** Bounds a user writes as [-2.0, 0.1]. *)
Definition lo_m2 : b64 := dbl true 4503599627370496 (-51) eq_refl.
Definition up_01 : b64 := dbl false 7205759403792794 (-56) eq_refl.

(** ** C30 *)
(** The un-scaled image of a unit-cube point can lie strictly above the upper bound: the upper
    corner of [-2.0, 0.1] is handed to the black box as 0.10000000000000009. *)
Theorem C30_outside_bounds_refuted : exists x lo up : b64,
  is_finite lo = true /\ is_finite up = true /\ Bltb lo up = true /\
  Bleb f0 x = true /\ Bleb x f1 = true /\
  is_finite (unscale1 x lo up) = true /\ Bltb up (unscale1 x lo up) = true.
Proof. exists f1, lo_m2, up_01. repeat split; vm_compute; reflexivity. Qed.
Print Assumptions C30_outside_bounds_refuted.
(** Even a point on the bound does not survive scaling and un-scaling. *)
Theorem C30_round_trip_outside_refuted : exists lo up p : b64,
  Bltb lo up = true /\ Bleb lo p = true /\ Bleb p up = true /\
  Bltb up (unscale1 (scale1 p lo up) lo up) = true.
Proof. exists lo_m2, up_01, up_01. repeat split; vm_compute; reflexivity. Qed.
Print Assumptions C30_round_trip_outside_refuted.

(** What does hold, for all finite bounds whose difference does not overflow and all unit-cube
    coordinates: un-scaling is monotone, never goes below the lower bound (and gives exactly it at
    0), and is largest at the upper corner; that corner is off by at most
    2^-52 (|upper| + upper - lower). *)
Theorem C30_lower_bound_kept : forall lo up x y : b64,
  is_finite lo = true -> is_finite up = true -> Bleb lo up = true -> is_finite (fsub up lo) = true ->
  Bleb f0 x = true -> Bleb x y = true -> Bleb y f1 = true ->
  Bleb lo (unscale1 x lo up) = true /\
  Bleb (unscale1 x lo up) (unscale1 y lo up) = true /\
  Bleb (unscale1 y lo up) (unscale1 f1 lo up) = true /\
  Beqb (unscale1 f0 lo up) lo = true /\
  (is_finite (unscale1 f1 lo up) = true ->
   (Rabs (B2R (unscale1 f1 lo up) - B2R up) <= bpow radix2 (-52) * (Rabs (B2R up) + (B2R up - B2R lo)))%R).
Proof.
  intros lo up x y Flo Fup Hle FD Hx Hxy Hy.
  assert (F1 : is_finite f1 = true) by reflexivity. assert (E1 : B2R f1 = 1%R) by apply Bone_correct.
  assert (NN : forall z w : b64, Bleb z w = true -> is_nan z = false /\ is_nan w = false) by (intros; now apply leb_real).
  assert (XF : forall z : b64, Bleb f0 z = true -> Bleb z f1 = true -> is_finite z = true).
  { intros z A B. destruct z as [|[|]| |]; try reflexivity; cbn in A, B; discriminate. }
  assert (Hx1 : Bleb x f1 = true) by (eapply leb_trans; eauto). assert (Hy0 : Bleb f0 y = true) by (eapply leb_trans; eauto).
  pose proof (XF x Hx Hx1) as Fx. pose proof (XF y Hy0 Hy) as Fy.
  apply leb_R in Hle, Hx, Hxy, Hy, Hx1, Hy0; auto; rewrite ?E1 in *; cbn [f0 B2R] in *.
  split; [apply unscale_low; auto|]. split; [apply unscale_mono; auto|]. split; [apply unscale_mono; auto; rewrite E1; lra|].
  split.
  - destruct (unscale_zero lo up Flo Fup Hle FD f0 eq_refl eq_refl) as (A & B). rewrite (Beqb_correct _ _ _ _ A Flo). now apply Req_bool_true.
  - intros F. now apply unscale_corner_error.
Qed.
Print Assumptions C30_lower_bound_kept.
Example C30_case : let h := dbl false 4503599627370496 (-53) eq_refl in
  is_finite lo_m2 = true /\ is_finite up_01 = true /\ Bleb lo_m2 up_01 = true /\ is_finite (fsub up_01 lo_m2) = true /\
  Bleb f0 h = true /\ Bleb h f1 = true /\ is_finite (unscale1 f1 lo_m2 up_01) = true /\
  B2SF (unscale1 h lo_m2 up_01) = SpecFloat.S754_finite true 8556839292003942 (-53).
Proof. repeat split; vm_compute; reflexivity. Qed.

(** Scaling does not have this defect: a value between its bounds is always scaled into [0,1], the
    bounds themselves exactly to 0 and 1. *)
Theorem C30_scaled_inside_unit_cube : forall lo up p : b64,
  is_finite lo = true -> is_finite up = true -> is_finite (fsub up lo) = true ->
  Bleb lo p = true -> Bleb p up = true ->
  Bleb f0 (scale1 p lo up) = true /\ Bleb (scale1 p lo up) f1 = true /\
  Beqb (scale1 lo lo up) f0 = true /\ (Bltb lo up = true -> Beqb (scale1 up lo up) f1 = true).
Proof.
  intros lo up p Flo Fup FD A B.
  assert (F1 : is_finite f1 = true) by reflexivity. assert (E1 : B2R f1 = 1%R) by apply Bone_correct.
  assert (F0 : is_finite f0 = true) by reflexivity.
  assert (Fp : is_finite p = true).
  { destruct (leb_real _ _ A) as (_ & N). destruct p as [|[|]| |]; try reflexivity; try discriminate.
    - destruct lo as [|[|]| |[|]]; cbn in *; discriminate.
    - destruct up as [|[|]| |[|]]; cbn in *; discriminate. }
  apply leb_R in A, B; auto.
  assert (H1 : (B2R lo <= B2R p <= B2R up)%R) by lra. assert (H2 : (B2R lo <= B2R lo <= B2R up)%R) by lra.
  assert (H3 : (B2R lo <= B2R up <= B2R up)%R) by lra.
  destruct (scale_unit lo up p Flo Fup Fp FD H1) as (P1 & P2 & _).
  destruct (scale_unit lo up lo Flo Fup Flo FD H2) as (Q1 & _ & Q2 & _).
  destruct (scale_unit lo up up Flo Fup Fup FD H3) as (R1 & _ & _ & R2).
  split; [apply leb_R; auto; cbn [f0 B2R]; lra|]. split; [apply leb_R; auto; rewrite E1; lra|].
  split; [rewrite (Beqb_correct _ _ _ _ Q1 F0); apply Req_bool_true; now rewrite Q2|].
  intros L. rewrite (Bltb_correct _ _ _ _ Flo Fup) in L. destruct (Rlt_bool_spec (B2R lo) (B2R up)) as [L'|]; [|discriminate].
  rewrite (Beqb_correct _ _ _ _ R1 F1). apply Req_bool_true. now rewrite R2.
Qed.
Print Assumptions C30_scaled_inside_unit_cube.
Example C30_forward_case : is_finite (fsub up_01 lo_m2) = true /\ Bleb lo_m2 f0 = true /\ Bleb f0 up_01 = true /\
  B2SF (scale1 f0 lo_m2 up_01) = SpecFloat.S754_finite false 8578285004515230 (-53).
Proof. repeat split; vm_compute; reflexivity. Qed.

(** When the difference of the bounds overflows (for example bounds of -1e308 and 1e308) no unit-cube
    point is mapped back to a finite number. *)
Theorem C30_wide_bounds_never_finite : forall x lo up : b64,
  is_finite x = true -> is_finite lo = true -> is_finite up = true -> is_finite (fsub up lo) = false ->
  is_finite (unscale1 x lo up) = false.
Proof. intros x lo up. now apply unscale_overflow. Qed.
Print Assumptions C30_wide_bounds_never_finite.
Example C30_wide_case : let b := dbl false 5010420900022432 971 eq_refl in let a := dbl true 5010420900022432 971 eq_refl in
  is_finite (fsub b a) = false /\ unscale1 f0 a b = B754_nan.
Proof. split; vm_compute; reflexivity. Qed.

(** ** C80 *)
(** Whatever else happens in the run: one NaN among the values and [optimize] returns NaN. *)
Theorem C80_nan_is_returned : forall es : list fevent,
  (exists v, In v (values es) /\ is_nan v = true) -> is_nan (freturned (frun es)) = true.
Proof. intros es H. now apply nan_returned. Qed.
Print Assumptions C80_nan_is_returned.
(** So the claim is false: after the starting values 1, 2 a NaN, then 0: internally the best
    value is 0, the returned one NaN. *)
Theorem C80_best_value_lost_refuted : exists es : list fevent,
  (exists v, In v (values es) /\ Beqb v f0 = true) /\ Beqb (fbest (frun es)) f0 = true /\
  is_nan (freturned (frun es)) = true.
Proof.
  exists [Sampled [f1; fadd f1 f1]; Evaluated fnan; Evaluated f0].
  split; [exists f0; split; [cbn; tauto|reflexivity]|]. split; vm_compute; reflexivity.
Qed.
Print Assumptions C80_best_value_lost_refuted.
(** The value shown in the log is right as long as no NaN is among starting values: it is the
    minimum of the numbers seen. *)
Theorem C80_internal_best_ignores_nan : forall es : list fevent,
  (forall vs, In (Sampled vs) es -> ~ exists v, In v vs /\ is_nan v = true) ->
  (exists v, In v (values es) /\ is_nan v = false) ->
  (forall v, In v (values es) -> is_nan v = false -> Bleb (fbest (frun es)) v = true) /\
  exists v, In v (values es) /\ Beqb v (fbest (frun es)) = true.
Proof. intros es H1 H2. now apply internal_best. Qed.
Print Assumptions C80_internal_best_ignores_nan.
Example C80_case : let es := [Sampled [f1; fadd f1 f1]; Evaluated fnan; Evaluated f0] in
  (forall vs, In (Sampled vs) es -> ~ exists v, In v vs /\ is_nan v = true) /\
  (exists v, In v (values es) /\ is_nan v = false) /\ Bleb (fbest (frun es)) f0 = true.
Proof.
  split; [|split; [exists f1; split; [now left|reflexivity]|vm_compute; reflexivity]].
  intros vs [E|[E|[E|[]]]]; try discriminate. injection E as <-. intros (v & [<-|[<-|[]]] & N); vm_compute in N; discriminate.
Qed.
(** A NaN among the starting values: none of these values counts for the best value, and until the next
    restart no value, however good, is recorded as an improvement of the current minimum. *)
Theorem C80_nan_in_sample_blinds_run : forall (es : list fevent) (vs later : list b64),
  (exists v, In v vs /\ is_nan v = true) ->
  let before := frun es in
  let started := frun (es ++ [Sampled vs]) in
  let after := frun (es ++ [Sampled vs] ++ map Evaluated later) in
  fbest started = fbest before /\ fbest_index started = fbest_index before /\
  is_nan (fmin after) = true /\ is_nan (fmax after) = true /\ fmin_index after = fmin_index started.
Proof.
  intros es vs later H. cbv zeta. unfold frun. rewrite app_assoc, !fold_left_app. cbn [fold_left fstep].
  set (s := fold_left fstep es fstart). destruct (sampled_nan s vs H) as (B & E1 & E2).
  destruct (blind_stays later _ B) as ((B1 & B2) & E3). auto.
Qed.
Print Assumptions C80_nan_in_sample_blinds_run.
Example C80_blind_case : let after := frun [Sampled [f1; fnan]; Evaluated f0] in
  is_nan (fmin after) = true /\ Beqb (fbest after) f0 = true /\ fbest (frun [Sampled [f1; fnan]]) = finf.
Proof. repeat split; vm_compute; reflexivity. Qed.
(** Without NaN (infinities allowed) double arithmetic changes nothing: the returned value is one of the
    values, not above any of them, and equals the internal best value. *)
Theorem C80_without_nan_minimum_returned : forall es : list fevent,
  values es <> [] -> (forall v, In v (values es) -> is_nan v = false) ->
  In (freturned (frun es)) (values es) /\ (forall v, In v (values es) -> Bleb (freturned (frun es)) v = true) /\
  Bleb (freturned (frun es)) (fbest (frun es)) = true /\ Bleb (fbest (frun es)) (freturned (frun es)) = true.
Proof.
  intros es NE H. assert (NN : ~ has_nan (values es)) by (intros (v & Hv & E); rewrite (H v Hv) in E; discriminate).
  destruct (returned_min es NE NN) as (A & B). split; [exact A|]. split; [exact B|].
  destruct (internal_best es) as (I1 & w & Hw & Ew).
  - intros vs Hvs (v & Hv & E). apply NN. exists v. split; [|exact E]. unfold values. apply in_flat_map. exists (Sampled vs). auto.
  - destruct (values es) as [|v r] eqn:EV; [congruence|]. exists v. split; [now left|apply H; now left].
  - split; [|apply I1; auto]. eapply leb_trans; [apply B; exact Hw|].
    unfold Beqb, Bleb, SpecFloat.SFeqb, SpecFloat.SFleb in *. destruct (SpecFloat.SFcompare _ _) as [[]|]; auto; discriminate.
Qed.
Print Assumptions C80_without_nan_minimum_returned.
Example C80_plain_case : let es := [Sampled [f1; finf]; Evaluated f0] in
  (forall v, In v (values es) -> is_nan v = false) /\ freturned (frun es) = f0.
Proof. split; [|vm_compute; reflexivity]. intros v [<-|[<-|[<-|[]]]]; vm_compute; reflexivity. Qed.
(** The recorded indices: the current minimum is the value of the current node with the recorded index, the best value that
    of the recorded row of the history; before the first sample (or improvement) the value is infinite and the index 0. *)
Fixpoint since_restart (acc : list b64) (es : list fevent) : list b64 :=
  match es with [] => acc | Sampled vs :: r => since_restart vs r | Evaluated v :: r => since_restart (acc ++ [v]) r end.
Definition designates (l : list b64) (i : nat) (v : b64) : Prop :=
  ((i < length l)%nat /\ nth i l fnan = v) \/ (v = finf /\ i = 0%nat).
Theorem C80_indices : forall es, (forall vs, In (Sampled vs) es -> vs <> []) -> let s := frun es in
  all_val s = values es /\ node_val s = since_restart [] es /\
  designates (since_restart [] es) (fmin_index s) (fmin s) /\ designates (values es) (fbest_index s) (fbest s).
Proof.
  intros es HE s. split; [apply run_all|]. rewrite <- (run_all es). fold s.
  assert (G : forall es s0, (forall vs, In (Sampled vs) es -> vs <> []) ->
    designates (node_val s0) (fmin_index s0) (fmin s0) -> designates (all_val s0) (fbest_index s0) (fbest s0) ->
    let s := fold_left fstep es s0 in node_val s = since_restart (node_val s0) es /\
    designates (node_val s) (fmin_index s) (fmin s) /\ designates (all_val s) (fbest_index s) (fbest s)).
  { clear. induction es as [|e es IH]; intros s0 HE D1 D2; [cbn; auto|]. cbn [fold_left].
    assert (K : forall (l l' : list b64) i v, designates l i v -> designates (l ++ l') i v).
    { intros l l' i v [(A & B)|A]; [left|right; exact A]. rewrite app_length, app_nth1 by exact A. split; [lia|exact B]. }
    assert (L : forall (l : list b64) v, designates (l ++ [v]) (length (l ++ [v]) - 1) v).
    { intros l v. left. rewrite app_length. cbn [length]. split; [lia|]. rewrite app_nth2 by lia.
      replace (length l + 1 - 1 - length l)%nat with 0%nat by lia. reflexivity. }
    assert (X : node_val (fstep s0 e) = since_restart (node_val s0) [e] /\
      designates (node_val (fstep s0 e)) (fmin_index (fstep s0 e)) (fmin (fstep s0 e)) /\
      designates (all_val (fstep s0 e)) (fbest_index (fstep s0 e)) (fbest (fstep s0 e))).
    { destruct e as [vs|v]; cbn [fstep frestart fadd_node node_val all_val fmin fmin_index fbest fbest_index since_restart].
      - assert (NE : vs <> []) by (apply HE; left; reflexivity). destruct (fargmin_spec vs NE) as (A & _).
        split; [reflexivity|]. split; [left; split; [exact A|reflexivity]|]. destruct (Bltb _ _); [|apply K; exact D2].
        left. rewrite app_length. split; [lia|]. rewrite app_nth2 by lia. f_equal. lia.
      - split; [reflexivity|]. split; destruct (Bltb _ _); try apply L; apply K; assumption. }
    destruct X as (X1 & X2 & X3). specialize (IH (fstep s0 e) (fun vs H => HE vs (or_intror H)) X2 X3). cbv zeta in IH |- *.
    destruct IH as (I1 & I2). split; [|exact I2]. rewrite I1, X1. destruct e; reflexivity. }
  destruct (G es fstart HE) as (G1 & G2 & G3); [right; split; reflexivity|right; split; reflexivity|].
  change (node_val fstart) with (@nil b64) in G1. fold (frun es) in G1, G2, G3. fold s in G1, G2, G3.
  split; [exact G1|]. split; [rewrite <- G1; exact G2|exact G3].
Qed.
Print Assumptions C80_indices.
Example C80_indices_case : let s := frun [Sampled [f1; finf]; Evaluated f0; Sampled [finf; f1]; Evaluated f0] in
  (forall vs, In (Sampled vs) [Sampled [f1; finf]; Evaluated f0; Sampled [finf; f1]; Evaluated f0] -> vs <> []) /\
  length (node_val s) = 3%nat /\ fmin_index s = 2%nat /\ fbest_index s = 2%nat /\ length (all_val s) = 6%nat.
Proof.
  split; [intros vs [E|[E|[E|[E|[]]]]]; try discriminate E; injection E as <-; discriminate|].
  repeat split; vm_compute; reflexivity.
Qed.
