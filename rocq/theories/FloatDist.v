(** * Proofs: distances in double arithmetic *)
From Coq Require Import Reals Lra Lia.
From Flocq Require Import Core.
From Verif Require Export FloatRun.
Open Scope R_scope.

Definition nn (x : b64) : Prop := is_nan x = false /\ Bleb f0 x = true.
Definition zero (x : b64) : Prop := is_finite x = true /\ B2R x = 0.
Lemma nn_cases x : nn x <-> (is_finite x = true /\ 0 <= B2R x) \/ x = finf.
Proof.
  split.
  - intros (N & L). destruct (not_nan_cases x N) as [F|(s & ->)].
    + left. split; [exact F|]. apply (leb_R f0 x eq_refl F) in L. exact L.
    + right. destruct s; [discriminate L|reflexivity].
  - intros [(F & L)| ->]; [|split; reflexivity]. split; [apply (fin_ext x F)|]. apply leb_R; auto.
Qed.
Lemma zero_nn x : zero x -> nn x.
Proof. intros (F & Z). apply nn_cases. left. split; [exact F|lra]. Qed.
Lemma sq_nn d : is_nan d = false -> nn (fmul d d).
Proof.
  intros N. apply nn_cases. destruct (not_nan_cases d N) as [F|(s & ->)]; [|right; destruct s; reflexivity].
  unfold fmul. pose proof (Bmult_correct 53 1024 _ _ mode_NE d d) as C.
  destruct (Rlt_bool_spec (Rabs (rnd (B2R d * B2R d))) (bpow radix2 1024)) as [L|L].
  - left. rewrite F in C. destruct C as (C1 & C2 & _). split; [exact C2|]. rewrite C1. apply rnd_sign. apply Rle_0_sqr.
  - right. apply B2SF_inj. rewrite C, xorb_nilpotent. reflexivity.
Qed.
Lemma sub_nan a b : is_finite a = true -> is_finite b = true -> is_nan (fsub a b) = false.
Proof. intros A B. apply (fsub_ext a b A B). Qed.
Lemma add_nn x y : nn x -> nn y -> nn (fadd x y).
Proof.
  intros Hx Hy. apply nn_cases in Hx, Hy. apply nn_cases. destruct Hx as [(Fx & Lx)| ->]; destruct Hy as [(Fy & Ly)| ->].
  - destruct (fadd_cases x y Fx Fy) as [(A & B & _)|(A & B & E)].
    + left. split; [exact A|]. rewrite B. apply rnd_sign. lra.
    + right. rewrite B. destruct (Bsign x) eqn:SX; [exfalso|reflexivity]. symmetry in E.
      pose proof (sign_pos x SX Fx). pose proof (sign_pos y E Fy). replace (B2R x + B2R y) with 0 in A by lra. rewrite rnd_0, Rabs_R0 in A. pose proof big_pos. lra.
  - right. destruct x as [a|a| |a m e B]; try discriminate Fx; reflexivity.
  - right. destruct y as [a|a| |a m e B]; try discriminate Fy; reflexivity.
  - right. reflexivity.
Qed.
Lemma add_zero x y : zero x -> zero y -> zero (fadd x y).
Proof.
  intros (Fx & Zx) (Fy & Zy). destruct (fadd_cases x y Fx Fy) as [(A & B & _)|(A & _)].
  - split; [exact A|]. rewrite B, Zx, Zy, Rplus_0_l. apply rnd_0.
  - exfalso. rewrite Zx, Zy, Rplus_0_l, rnd_0, Rabs_R0 in A. pose proof big_pos. lra.
Qed.
Lemma sums_nn l s : fsums l s -> Forall nn l -> nn s.
Proof.
  induction 1 as [|x|a b x y _ IHa _ IHb|a b x _ IH P]; intros F.
  - split; reflexivity.
  - inversion F; assumption.
  - apply Forall_app in F. destruct F. apply add_nn; auto.
  - apply IH. rewrite Forall_forall in *. intros z Hz. apply F. eapply Permutation_in; eauto.
Qed.
Lemma sums_zero l s : fsums l s -> Forall zero l -> zero s.
Proof.
  induction 1 as [|x|a b x y _ IHa _ IHb|a b x _ IH P]; intros F.
  - split; reflexivity.
  - inversion F; assumption.
  - apply Forall_app in F. destruct F. apply add_zero; auto.
  - apply IH. rewrite Forall_forall in *. intros z Hz. apply F. eapply Permutation_in; eauto.
Qed.
Lemma nan_add x y : is_nan x = true \/ is_nan y = true -> is_nan (fadd x y) = true.
Proof. intros [H|H]; [destruct x; try discriminate H; reflexivity|destruct y; try discriminate H; destruct x; reflexivity]. Qed.
Lemma sums_nan l s : fsums l s -> has_nan l -> is_nan s = true.
Proof.
  induction 1 as [|x|a b x y _ IHa _ IHb|a b x _ IH P]; intros (z & Hz & N).
  - destruct Hz.
  - destruct Hz as [<-|[]]. exact N.
  - apply nan_add. apply in_app_or in Hz. destruct Hz; [left; apply IHa|right; apply IHb]; exists z; auto.
  - apply IH. exists z. split; [eapply Permutation_in; [apply Permutation_sym; exact P|exact Hz]|exact N].
Qed.
Lemma sqrt_nn x : nn x -> nn (Bsqrt mode_NE x : b64).
Proof.
  intros H. apply nn_cases in H. apply nn_cases. destruct H as [(F & L)| ->]; [|right; reflexivity]. left.
  destruct (Bsqrt_correct 53 1024 _ _ mode_NE x) as (A & B & _). rewrite A, B. split.
  - destruct x as [a|a| |a m e Bd]; try discriminate F; [reflexivity|]. destruct a; [|reflexivity]. exfalso.
    pose proof (F2R_lt_0 radix2 (Float radix2 (Z.neg m) e) ltac:(reflexivity)). cbn in *. lra.
  - apply rnd_sign. apply sqrt_pos.
Qed.
Lemma sqrt_zero x : zero x -> zero (Bsqrt mode_NE x : b64).
Proof.
  intros Hz. pose proof (sqrt_nn x (zero_nn x Hz)) as S. destruct Hz as (F & Z).
  destruct (Bsqrt_correct 53 1024 _ _ mode_NE x) as (A & B & _). split; [|rewrite A, Z, sqrt_0; apply rnd_0].
  rewrite B. destruct x as [a|a| |a m e Bd]; try discriminate F; [reflexivity|]. exfalso. cbn in Z. apply eq_0_F2R in Z. destruct a; discriminate.
Qed.

(** ** Distances of finite points *)
Definition finite_point (p : list b64) : Prop := forall x, In x p -> is_finite x = true.
Lemma in_squares p q z : In z (fsquares p q) -> exists a b, In a p /\ In b q /\ z = fmul (fsub a b) (fsub a b).
Proof.
  unfold fsquares. intros H. apply in_map_iff in H. destruct H as ((a & b) & <- & H). exists a, b.
  split; [eapply in_combine_l; eauto|]. split; [eapply in_combine_r; eauto|reflexivity].
Qed.
Lemma dist_nn p q r : finite_point p -> finite_point q -> fdistance p q r -> nn r.
Proof.
  intros Hp Hq (s & Hs & ->). apply sqrt_nn. eapply sums_nn; [exact Hs|]. apply Forall_forall. intros z Hz.
  apply in_squares in Hz. destruct Hz as (a & b & Ha & Hb & ->). apply sq_nn, sub_nan; auto.
Qed.
Lemma self_square a : is_finite a = true -> zero (fmul (fsub a a) (fsub a a)).
Proof.
  intros F. assert (Z : zero (fsub a a)).
  { destruct (fsub_ext a a F F) as (A1 & A2). replace (B2R a - B2R a) with 0 in A2 by ring. unfold rext in A2. rewrite rnd_0, Rabs_R0, Rlt_bool_true in A2 by apply big_pos.
    exact (ext_fin _ _ A1 A2). }
  destruct Z as (FZ & Z). destruct (fmul_fits _ _ FZ FZ) as (A & B); [rewrite Z, Rmult_0_l, rnd_0, Rabs_R0; apply big_pos|].
  split; [exact A|]. rewrite B, Z, Rmult_0_l. apply rnd_0.
Qed.
Lemma dist_self p r : finite_point p -> fdistance p p r -> zero r.
Proof.
  intros Hp (s & Hs & ->). apply sqrt_zero. eapply sums_zero; [exact Hs|]. clear Hs. unfold fsquares.
  induction p as [|a p IH]; cbn; constructor; [|apply IH; intros x Hx; apply Hp; right; exact Hx].
  cbn. apply self_square. apply Hp. left. reflexivity.
Qed.
Lemma square_sym a b : is_finite a = true -> is_finite b = true -> fmul (fsub a b) (fsub a b) = fmul (fsub b a) (fsub b a).
Proof.
  intros Fa Fb. destruct (fsub_ext a b Fa Fb) as (A1 & A2). destruct (fsub_ext b a Fb Fa) as (B1 & B2).
  assert (OPP : rnd (B2R b - B2R a) = - rnd (B2R a - B2R b)).
  { replace (B2R b - B2R a) with (- (B2R a - B2R b)) by ring. apply round_NE_opp. }
  unfold rext in A2, B2. rewrite OPP, Rabs_Ropp in B2. destruct (Rlt_bool_spec (Rabs (rnd (B2R a - B2R b))) big) as [L|L].
  - destruct (ext_fin _ _ A1 A2) as (FA & VA). destruct (ext_fin _ _ B1 B2) as (FB & VB).
    set (x := fsub a b) in *. set (y := fsub b a) in *. unfold fmul.
    pose proof (Bmult_correct 53 1024 _ _ mode_NE x x) as CX. pose proof (Bmult_correct 53 1024 _ _ mode_NE y y) as CY.
    assert (E : B2R y * B2R y = B2R x * B2R x) by (rewrite VA, VB; ring). rewrite E in CY.
    destruct (Rlt_bool (Rabs (rnd (B2R x * B2R x))) (bpow radix2 1024)).
    + rewrite FA in CX. rewrite FB in CY. destruct CX as (X1 & X2 & X3). destruct CY as (Y1 & Y2 & Y3). cbn [andb] in *.
      apply (B2R_Bsign_inj 53 1024); auto; [congruence|].
      rewrite X3, Y3 by (apply fin_ext; assumption). rewrite !xorb_nilpotent. reflexivity.
    + apply B2SF_inj. rewrite CX, CY, !xorb_nilpotent. reflexivity.
  - assert (I : forall x : b64, is_nan x = false -> (ext_of x = PInf \/ ext_of x = MInf) -> fmul x x = finf).
    { intros x N H. destruct (not_nan_cases x N) as [F|(s & ->)]; [destruct (fin_ext x F) as (E & _); rewrite E in H; destruct H; discriminate|].
      destruct s; reflexivity. }
    assert (HA : ext_of (fsub a b) = PInf \/ ext_of (fsub a b) = MInf) by (rewrite A2; destruct (Rlt_bool 0 _); auto).
    assert (HB : ext_of (fsub b a) = PInf \/ ext_of (fsub b a) = MInf) by (rewrite B2; match goal with |- context [Rlt_bool 0 ?z] => destruct (Rlt_bool 0 z) end; [left|right]; reflexivity).
    rewrite (I _ A1 HA), (I _ B1 HB). reflexivity.
Qed.
Lemma dist_sym p q r : finite_point p -> finite_point q -> fdistance p q r -> fdistance q p r.
Proof.
  intros Hp Hq (s & Hs & ->). exists s. split; [|reflexivity]. replace (fsquares q p) with (fsquares p q); [exact Hs|].
  clear Hs. unfold fsquares. revert q Hq. induction p as [|a p IH]; intros [|b q] Hq; try reflexivity. cbn [combine map fst snd]. f_equal.
  - apply square_sym; [apply Hp|apply Hq]; left; reflexivity.
  - apply IH; [intros x Hx; apply Hp; right; exact Hx|intros x Hx; apply Hq; right; exact Hx].
Qed.

(** ** np.amin *)
Lemma fold_min_spec : forall l m, is_nan m = false -> ~ has_nan l ->
  let f := fold_left (fun m y : b64 => if is_nan m then m else if is_nan y then y else if Bltb y m then y else m) l m in
  is_nan f = false /\ Bleb f m = true /\ forall x, In x l -> Bleb f x = true.
Proof.
  induction l as [|y l IH]; intros m N H; cbn [fold_left].
  - split; [exact N|]. split; [apply leb_refl; exact N|]. intros x [].
  - assert (NY : is_nan y = false) by (destruct (is_nan y) eqn:E; [exfalso; apply H; exists y; cbn; auto|reflexivity]).
    assert (HL : ~ has_nan l) by (intros (z & Z1 & Z2); apply H; exists z; cbn; auto). rewrite N, NY.
    destruct (Bltb y m) eqn:E.
    + destruct (IH y NY HL) as (A & B & C). split; [exact A|].
      assert (YM : Bleb y m = true) by (rewrite ltb_leb in E by assumption; apply negb_true_iff in E; apply leb_total; assumption).
      split; [eapply leb_trans; eauto|]. intros x [<-|Hx]; auto.
    + destruct (IH m N HL) as (A & B & C). split; [exact A|]. split; [exact B|]. intros x [<-|Hx]; [|auto].
      rewrite ltb_leb in E by assumption. apply negb_false_iff in E. eapply leb_trans; eauto.
Qed.
Lemma fmin_spec l : l <> [] -> ~ has_nan l -> is_nan (fminimum l) = false /\ forall x, In x l -> Bleb (fminimum l) x = true.
Proof.
  destruct l as [|m l]; [congruence|]. intros _ H.
  assert (N : is_nan m = false) by (destruct (is_nan m) eqn:E; [exfalso; apply H; exists m; cbn; auto|reflexivity]).
  assert (HL : ~ has_nan l) by (intros (z & Z1 & Z2); apply H; exists z; cbn; auto).
  destruct (fold_min_spec l m N HL) as (A & B & C). split; [exact A|]. intros x [<-|Hx]; [exact B|exact (C x Hx)].
Qed.
Lemma fold_min_nan : forall l m, is_nan m = true \/ has_nan l ->
  is_nan (fold_left (fun m y : b64 => if is_nan m then m else if is_nan y then y else if Bltb y m then y else m) l m) = true.
Proof.
  induction l as [|y l IH]; intros m H; cbn [fold_left]; [destruct H as [H|(z & [] & _)]; exact H|]. apply IH.
  destruct (is_nan m) eqn:E; [auto|]. destruct H as [H|(z & [<-|Hz] & N)]; [discriminate|rewrite N; auto|right; exists z; auto].
Qed.
Lemma fmin_nan l : has_nan l -> is_nan (fminimum l) = true.
Proof.
  destruct l as [|m l]; intros (z & Hz & N); [destruct Hz|]. apply fold_min_nan. destruct Hz as [<-|Hz]; [auto|right; exists z; auto].
Qed.

(** ** The test *)
Lemma discards_same md p nodes ans : Bleb f0 md = true -> finite_point p -> (forall q, In q nodes -> finite_point q) -> In p nodes ->
  fdiscards md p nodes ans -> ans = true.
Proof.
  intros Hm Hp Hq Hin (ds & HF & ->).
  assert (NN : ~ has_nan ds /\ exists r, In r ds /\ zero r).
  { clear Hm. induction HF as [|q r nodes ds D HF IH]; [destruct Hin|].
    pose proof (dist_nn p q r Hp (Hq q (or_introl eq_refl)) D) as (N & _).
    assert (NH : ~ has_nan ds).
    { assert (HQ : forall q, In q nodes -> finite_point q) by (intros y Hy; apply Hq; right; exact Hy). clear - HF Hp HQ.
      induction HF as [|q r nodes ds D HF IH]; intros (z & Hz & N); [destruct Hz|].
      destruct Hz as [<-|Hz]; [destruct (dist_nn p q r Hp (HQ q (or_introl eq_refl)) D); congruence|].
      apply IH; [intros y Hy; apply HQ; right; exact Hy|]. exists z. auto. }
    split; [intros (z & [<-|Hz] & N'); [congruence|apply NH; exists z; auto]|].
    destruct Hin as [->|Hin]; [exists r; split; [left; reflexivity|eapply dist_self; eauto]|].
    destruct (IH (fun y Hy => Hq y (or_intror Hy)) Hin) as (_ & r' & R1 & R2). exists r'. split; [right; exact R1|exact R2]. }
  destruct NN as (NH & r & R1 & R2). destruct (fmin_spec ds) as (_ & M); [intros ->; destruct R1|exact NH|].
  apply leb_trans with r; [apply M; exact R1|]. apply leb_trans with f0; [|exact Hm]. destruct R2 as (F & Z). apply leb_R; auto. rewrite Z. cbn. lra.
Qed.
Lemma discards_nan md p nodes ans : has_nan p -> nodes <> [] -> (forall q, In q nodes -> length q = length p) ->
  fdiscards md p nodes ans -> ans = false.
Proof.
  intros Hp Hn HL (ds & HF & ->). apply nan_leb. left. apply fmin_nan. destruct HF as [|q r nodes ds (s & Hs & ->) HF]; [congruence|].
  exists (Bsqrt mode_NE s). split; [left; reflexivity|].
  assert (N : is_nan s = true).
  { eapply sums_nan; [exact Hs|]. specialize (HL q (or_introl eq_refl)). clear - Hp HL. destruct Hp as (x & Hx & N). unfold fsquares.
    revert q HL. induction p as [|a p IH]; intros [|b q] HL; try discriminate HL; [destruct Hx|]. cbn in HL. injection HL as HL.
    destruct Hx as [->|Hx].
    - eexists. split; [left; reflexivity|]. cbn. destruct x; try discriminate N. reflexivity.
    - destruct (IH Hx q HL) as (z & Z1 & Z2). exists z. split; [right; exact Z1|exact Z2]. }
  destruct s; try discriminate N. reflexivity.
Qed.
