(** * Proofs: accuracy of distances computed in doubles, for every order of summation *)
From Coq Require Import Reals Lra Lia.
From Flocq Require Import Core.
From Verif Require Export FloatDist.
From Verif Require Import SpecFloatRun.
Open Scope R_scope.

Definition val (x : b64) : R := if is_finite x then B2R x else big.
Definition vsum (l : list b64) : R := fold_right (fun x s => val x + s) 0 l.
Lemma vsum_app a b : vsum (a ++ b) = vsum a + vsum b.
Proof. unfold vsum. induction a as [|x a IH]; cbn [app fold_right]; [ring|]. rewrite IH. ring. Qed.
Lemma vsum_perm a b : Permutation a b -> vsum a = vsum b.
Proof. induction 1; cbn in *; unfold vsum in *; lra. Qed.
Lemma val_nn x : nn x -> 0 <= val x.
Proof. intros H. apply nn_cases in H. unfold val. pose proof big_pos. destruct H as [(F & L)| ->]; [rewrite F; exact L|cbn; lra]. Qed.
Lemma vsum_nn l : Forall nn l -> 0 <= vsum l.
Proof. induction 1; cbn; [lra|]. apply val_nn in H. unfold vsum in IHForall. lra. Qed.

Lemma add_up x y : nn x -> nn y -> val (fadd x y) <= (val x + val y) * (1 + u53).
Proof.
  intros Hx Hy. pose proof (val_nn x Hx) as Vx. pose proof (val_nn y Hy) as Vy. pose proof u53_pos as U. pose proof big_pos as BP.
  apply nn_cases in Hx, Hy. destruct Hx as [(Fx & Lx)| ->].
  - destruct Hy as [(Fy & Ly)| ->].
    + pose proof (sum_error (B2R x) (B2R y) (fmt x) (fmt y)) as E. rewrite (Rabs_pos_eq (B2R x + B2R y)) in E by lra. apply Rabs_le_inv in E.
      change (bpow radix2 (-53)) with u53 in E. unfold val at 2 3. rewrite Fx, Fy.
      destruct (fadd_cases x y Fx Fy) as [(A & B & _)|(A & B & _)].
      * unfold val. rewrite A, B. lra.
      * assert (V : val (fadd x y) = big) by (unfold val; rewrite B; destruct (Bsign x); reflexivity). rewrite V.
        destruct (rnd_sign (B2R x + B2R y)) as (P & _). rewrite Rabs_pos_eq in A by (apply P; lra). unfold big in *. lra.
    + replace (fadd x finf) with finf by (destruct x as [a|a| |a m e B]; try discriminate Fx; reflexivity).
      change (val finf) with big in *. nra.
  - replace (fadd finf y) with finf by (destruct Hy as [(Fy & Ly)| ->]; [destruct y as [a|a| |a m e B]; try discriminate Fy; reflexivity|reflexivity]).
    change (val finf) with big in *. nra.
Qed.
Lemma add_fin x y : nn x -> nn y -> is_finite (fadd x y) = true -> is_finite x = true /\ is_finite y = true.
Proof.
  intros Hx Hy F. apply nn_cases in Hx, Hy. destruct Hx as [(Fx & Lx)| ->].
  - split; [exact Fx|]. destruct Hy as [(Fy & Ly)| ->]; [exact Fy|]. destruct x as [a|a| |a m e B]; discriminate.
  - exfalso. destruct Hy as [(Fy & Ly)| ->]; [destruct y as [a|a| |a m e B]; discriminate|discriminate].
Qed.
Lemma add_low x y : nn x -> nn y -> is_finite (fadd x y) = true -> (val x + val y) * (1 - u53) <= val (fadd x y).
Proof.
  intros Hx Hy F. destruct (add_fin x y Hx Hy F) as (Fx & Fy). apply val_nn in Hx, Hy. unfold val in *. rewrite Fx, Fy, F in *.
  pose proof (sum_error (B2R x) (B2R y) (fmt x) (fmt y)) as E. rewrite (Rabs_pos_eq (B2R x + B2R y)) in E by lra. apply Rabs_le_inv in E.
  change (bpow radix2 (-53)) with u53 in E.
  destruct (fadd_cases x y Fx Fy) as [(A & B & _)|(A & B & _)]; [rewrite B; lra|]. rewrite B in F. discriminate.
Qed.
Lemma val_zero x : zero x -> val x = 0.
Proof. intros (F & Z). unfold val. rewrite F. exact Z. Qed.
Lemma add_zero_l x y : zero x -> nn y -> val (fadd x y) = val y.
Proof.
  intros (Fx & Zx) Hy. apply nn_cases in Hy. destruct Hy as [(Fy & Ly)| ->].
  - destruct (fadd_cases x y Fx Fy) as [(A & B & _)|(A & _)].
    + unfold val. rewrite A, B, Fy, Zx, Rplus_0_l. apply rnd_id.
    + exfalso. rewrite Zx, Rplus_0_l in A. rewrite rnd_id in A. pose proof (abs_B2R_lt_emax 53 1024 y). unfold big in A. lra.
  - destruct x as [a|a| |a m e B]; try discriminate Fx; reflexivity.
Qed.
Lemma add_zero_r x y : nn x -> zero y -> val (fadd x y) = val x.
Proof.
  intros Hx (Fy & Zy). apply nn_cases in Hx. destruct Hx as [(Fx & Lx)| ->].
  - destruct (fadd_cases x y Fx Fy) as [(A & B & _)|(A & _)].
    + unfold val. rewrite A, B, Fx, Zy, Rplus_0_r. apply rnd_id.
    + exfalso. rewrite Zy, Rplus_0_r in A. rewrite rnd_id in A. pose proof (abs_B2R_lt_emax 53 1024 x). unfold big in A. lra.
  - destruct y as [a|a| |a m e B]; try discriminate Fy; reflexivity.
Qed.
Lemma pow_up_ge1 n : 1 <= (1 + u53) ^ n.
Proof. apply pow_R1_Rle. pose proof u53_pos. lra. Qed.
Lemma pow_dn n : 0 <= (1 - u53) ^ n <= 1.
Proof. pose proof u53_pos as U. induction n as [|n IH]; [cbn; lra|]. cbn [pow]. set (w := (1 - u53) ^ n) in *. clearbody w. split; [apply Rmult_le_pos; lra|]. nra. Qed.
Lemma sums_up l s : fsums l s -> Forall nn l -> val s <= vsum l * (1 + u53) ^ length l.
Proof.
  pose proof u53_pos as U. induction 1 as [|x|a b x y Sa IHa Sb IHb|a b x Sa IH P]; intros F.
  - cbn. lra.
  - inversion F as [|? ? A _]; subst. apply val_nn in A. cbn. nra.
  - apply Forall_app in F. destruct F as (Fa & Fb). specialize (IHa Fa). specialize (IHb Fb).
    pose proof (sums_nn _ _ Sa Fa) as Nx. pose proof (sums_nn _ _ Sb Fb) as Ny. rewrite vsum_app, app_length.
    pose proof (vsum_nn a Fa) as Va. pose proof (vsum_nn b Fb) as Vb.
    destruct a as [|a0 a].
    { assert (Z : zero x) by (eapply sums_zero; [exact Sa|constructor]). rewrite add_zero_l by assumption. cbn [length vsum fold_right Nat.add]. rewrite Rplus_0_l. exact IHb. }
    destruct b as [|b0 b].
    { assert (Z : zero y) by (eapply sums_zero; [exact Sb|constructor]). rewrite add_zero_r by assumption. cbn [length vsum fold_right]. rewrite Rplus_0_r, Nat.add_0_r. exact IHa. }
    eapply Rle_trans; [apply add_up; assumption|]. cbn [length] in *. set (VA := vsum (a0 :: a)) in *. set (VB := vsum (b0 :: b)) in *.
    set (i := length a) in *. set (j := length b) in *.
    replace ((1 + u53) ^ (S i + S j)) with ((1 + u53) ^ S i * (1 + u53) ^ j * (1 + u53)) by (rewrite pow_add; cbn [pow]; ring).
    pose proof (pow_up_ge1 (S i)) as Pi. pose proof (pow_up_ge1 j) as Pj. cbn [pow] in IHb.
    assert (IHb' : val y <= VB * ((1 + u53) ^ S i * (1 + u53) ^ j)).
    { eapply Rle_trans; [exact IHb|]. cbn [pow] in *. apply Rmult_le_compat_l; [exact Vb|]. pose proof (pow_up_ge1 i). 
      apply Rmult_le_compat_r; [lra|]. nra. }
    assert (IHa' : val x <= VA * ((1 + u53) ^ S i * (1 + u53) ^ j)).
    { eapply Rle_trans; [exact IHa|]. apply Rmult_le_compat_l; [exact Va|]. nra. }
    replace ((VA + VB) * ((1 + u53) ^ S i * (1 + u53) ^ j * (1 + u53))) with ((VA + VB) * ((1 + u53) ^ S i * (1 + u53) ^ j) * (1 + u53)) by ring.
    apply Rmult_le_compat_r; [lra|]. lra.
  - rewrite <- (vsum_perm a b P), <- (Permutation_length P). apply IH. rewrite Forall_forall in *. intros z Hz. apply F. eapply Permutation_in; eauto.
Qed.
Lemma sums_low l s : fsums l s -> Forall nn l -> is_finite s = true -> vsum l * (1 - u53) ^ length l <= val s /\ Forall (fun x => is_finite x = true) l.
Proof.
  pose proof u53_pos as U. induction 1 as [|x|a b x y Sa IHa Sb IHb|a b x Sa IH P]; intros F FS.
  - cbn. split; [lra|constructor].
  - inversion F as [|? ? A _]; subst. apply val_nn in A. cbn. split; [nra|repeat constructor; exact FS].
  - apply Forall_app in F. destruct F as (Fa & Fb).
    pose proof (sums_nn _ _ Sa Fa) as Nx. pose proof (sums_nn _ _ Sb Fb) as Ny. destruct (add_fin x y Nx Ny FS) as (FX & FY).
    destruct (IHa Fa FX) as (IHa1 & IHa2). destruct (IHb Fb FY) as (IHb1 & IHb2). clear IHa IHb. split; [|apply Forall_app; auto]. rewrite vsum_app, app_length.
    pose proof (vsum_nn a Fa) as Va. pose proof (vsum_nn b Fb) as Vb.
    destruct a as [|a0 a].
    { assert (Z : zero x) by (eapply sums_zero; [exact Sa|constructor]). rewrite add_zero_l by assumption. cbn [length vsum fold_right Nat.add]. rewrite Rplus_0_l. exact IHb1. }
    destruct b as [|b0 b].
    { assert (Z : zero y) by (eapply sums_zero; [exact Sb|constructor]). rewrite add_zero_r by assumption. cbn [length vsum fold_right]. rewrite Rplus_0_r, Nat.add_0_r. exact IHa1. }
    eapply Rle_trans; [|apply add_low; assumption]. cbn [length] in *. set (VA := vsum (a0 :: a)) in *. set (VB := vsum (b0 :: b)) in *.
    set (i := length a) in *. set (j := length b) in *.
    replace ((1 - u53) ^ (S i + S j)) with ((1 - u53) ^ S i * (1 - u53) ^ j * (1 - u53)) by (rewrite pow_add; cbn [pow]; ring).
    pose proof (pow_dn (S i)) as Pi. pose proof (pow_dn j) as Pj. cbn [pow] in IHb1.
    assert (IHb' : VB * ((1 - u53) ^ S i * (1 - u53) ^ j) <= val y).
    { eapply Rle_trans; [|exact IHb1]. apply Rmult_le_compat_l; [exact Vb|]. cbn [pow] in *. pose proof (pow_dn i).
      apply Rmult_le_compat_r; [lra|]. nra. }
    assert (IHa' : VA * ((1 - u53) ^ S i * (1 - u53) ^ j) <= val x).
    { eapply Rle_trans; [|exact IHa1]. apply Rmult_le_compat_l; [exact Va|]. nra. }
    replace ((VA + VB) * ((1 - u53) ^ S i * (1 - u53) ^ j * (1 - u53))) with ((VA + VB) * ((1 - u53) ^ S i * (1 - u53) ^ j) * (1 - u53)) by ring.
    apply Rmult_le_compat_r; [lra|]. lra.
  - rewrite <- (vsum_perm a b P), <- (Permutation_length P). destruct IH as (A & B); [|exact FS|].
    { rewrite Forall_forall in *. intros z Hz. apply F. eapply Permutation_in; eauto. }
    split; [exact A|]. rewrite Forall_forall in *. intros z Hz. apply B. eapply Permutation_in; [apply Permutation_sym; exact P|exact Hz].
Qed.

(** ** Squares *)
Lemma sub_abs (a b : b64) : is_finite a = true -> is_finite b = true ->
  Rabs (B2R a - B2R b) * (1 - u53) <= Rabs (rnd (B2R a - B2R b)) <= Rabs (B2R a - B2R b) * (1 + u53).
Proof.
  intros Fa Fb. pose proof (sum_error (B2R a) (- B2R b) (fmt a) (generic_format_opp _ _ _ (fmt b))) as E.
  change (B2R a + - B2R b) with (B2R a - B2R b) in E. change (bpow radix2 (-53)) with u53 in E.
  pose proof (Rabs_triang_inv (rnd (B2R a - B2R b)) (B2R a - B2R b)).
  pose proof (Rabs_triang_inv (B2R a - B2R b) (rnd (B2R a - B2R b))) as T. rewrite (Rabs_minus_sym (B2R a - B2R b) (rnd (B2R a - B2R b))) in T. lra.
Qed.
Lemma square_bounds a b : is_finite a = true -> is_finite b = true ->
  let z := fmul (fsub a b) (fsub a b) in let D := (B2R a - B2R b) * (B2R a - B2R b) in
  val z <= D * (1 + u53) ^ 3 + eta /\ (is_finite z = true -> D * (1 - u53) ^ 3 - eta <= val z).
Proof.
  intros Fa Fb z D. pose proof u53_pos as U. pose proof eta_pos as ET. pose proof big_pos as BP.
  pose proof (sub_abs a b Fa Fb) as (SL & SU). destruct (fsub_ext a b Fa Fb) as (N & X). set (d := fsub a b) in *. unfold z. clear z.
  set (w := B2R a - B2R b) in *. assert (DD : D = Rabs w * Rabs w) by (unfold D; rewrite <- Rabs_mult, Rabs_pos_eq; [reflexivity|apply Rle_0_sqr]).
  pose proof (Rabs_pos w) as PW. unfold rext in X. destruct (Rlt_bool_spec (Rabs (rnd w)) big) as [L|L].
  - destruct (ext_fin _ _ N X) as (FD & VD). set (v := B2R d) in *. assert (VV : v * v = Rabs (rnd w) * Rabs (rnd w)) by (rewrite VD, <- Rabs_mult, Rabs_pos_eq; [reflexivity|apply Rle_0_sqr]).
    assert (Q1 : v * v <= D * ((1 + u53) * (1 + u53))).
    { rewrite VV, DD. replace (Rabs w * Rabs w * ((1 + u53) * (1 + u53))) with ((Rabs w * (1 + u53)) * (Rabs w * (1 + u53))) by ring.
      apply Rmult_le_compat; auto using Rabs_pos. }
    assert (Q2 : D * ((1 - u53) * (1 - u53)) <= v * v).
    { rewrite VV, DD. replace (Rabs w * Rabs w * ((1 - u53) * (1 - u53))) with ((Rabs w * (1 - u53)) * (Rabs w * (1 - u53))) by ring.
      apply Rmult_le_compat; auto; apply Rmult_le_pos; lra. }
    assert (P : 0 <= v * v) by apply Rle_0_sqr. pose proof (rnd_error (v * v) P) as (E1 & E2). destruct (rnd_sign (v * v)) as (SG & _). specialize (SG P).
    assert (QD : 0 <= D) by (unfold D; apply Rle_0_sqr).
    unfold fmul. pose proof (Bmult_correct 53 1024 _ _ mode_NE d d) as C. fold v in C. change (round radix2 (SpecFloat.fexp 53 1024) (round_mode mode_NE) (v * v)) with (rnd (v * v)) in C.
    destruct (Rlt_bool_spec (Rabs (rnd (v * v))) (bpow radix2 1024)) as [L'|L'].
    + rewrite FD in C. destruct C as (C1 & C2 & _). cbn [andb] in C2. unfold val. rewrite C2, C1. cbn [pow]. rewrite !Rmult_1_r.
      change (round radix2 (SpecFloat.fexp 53 1024) (round_mode mode_NE) (v * v)) with (rnd (v * v)). split; [|intros _]; nra.
    + assert (E : Bmult mode_NE d d = finf) by (apply B2SF_inj; rewrite C, xorb_nilpotent; reflexivity). rewrite E. split; [|discriminate].
      change (val finf) with big. rewrite Rabs_pos_eq in L' by exact SG. fold big in L'. cbn [pow]. rewrite !Rmult_1_r. nra.
  - assert (E : fmul d d = finf).
    { destruct (not_nan_cases d N) as [F|(s & ->)]; [|destruct s; reflexivity]. exfalso. destruct (fin_ext d F) as (E & _). rewrite E in X. destruct (Rlt_bool 0 w); discriminate. }
    rewrite E. split; [|discriminate]. change (val finf) with big. rewrite DD. cbn [pow]. rewrite !Rmult_1_r.
    assert (B1 : 1 <= big) by (unfold big; change 1 with (bpow radix2 0); apply bpow_le; discriminate).
    assert (G : big <= Rabs w * (1 + u53)) by lra.
    assert (G2 : big * big <= Rabs w * (1 + u53) * (Rabs w * (1 + u53))) by (apply Rmult_le_compat; lra).
    assert (G3 : big <= big * big) by nra. assert (G4 : 0 <= Rabs w * (1 + u53) * (Rabs w * (1 + u53))) by lra. nra.
Qed.

(** ** Distances *)
Lemma square_sum p q : all_finite p -> all_finite q -> length p = length q ->
  vsum (fsquares p q) <= sq_dist p q * (1 + u53) ^ 3 + INR (length p) * eta /\
  (Forall (fun x => is_finite x = true) (fsquares p q) -> sq_dist p q * (1 - u53) ^ 3 - INR (length p) * eta <= vsum (fsquares p q)).
Proof.
  revert q. induction p as [|a p IH]; intros [|b q] Hp Hq L; try discriminate L; [cbn; split; [lra|intros _; lra]|].
  destruct (IH q) as (I1 & I2); [intros x Hx; apply Hp; right; exact Hx|intros x Hx; apply Hq; right; exact Hx|cbn in L; lia|].
  destruct (square_bounds a b (Hp a (or_introl eq_refl)) (Hq b (or_introl eq_refl))) as (B1 & B2). cbv zeta in B1, B2.
  cbn [length]. rewrite S_INR. unfold fsquares in *. unfold sq_dist in *. cbn [combine map fst snd vsum fold_right] in *. split.
  - unfold vsum in I1. lra.
  - intros F. inversion F as [|? ? F1 F2]; subst. specialize (B2 F1). specialize (I2 F2). unfold vsum in I2. lra.
Qed.
Lemma squares_nn p q : all_finite p -> all_finite q -> Forall nn (fsquares p q).
Proof.
  intros Hp Hq. apply Forall_forall. intros z Hz. apply in_squares in Hz. destruct Hz as (a & b & Ha & Hb & ->). apply sq_nn, sub_nan; auto.
Qed.
Lemma squares_length p q : length p = length q -> length (fsquares p q) = length p.
Proof. intros L. unfold fsquares. rewrite map_length, combine_length. lia. Qed.
Definition upper (n : nat) (E : R) : R := (E * (1 + u53) ^ 3 + INR n * eta) * (1 + u53) ^ n.
Definition lower (n : nat) (E : R) : R := (E * (1 - u53) ^ 3 - INR n * eta) * (1 - u53) ^ n.
Lemma sum_bounds p q s : all_finite p -> all_finite q -> length p = length q -> fsums (fsquares p q) s ->
  val s <= upper (length p) (sq_dist p q) /\ (is_finite s = true -> lower (length p) (sq_dist p q) <= val s).
Proof.
  intros Hp Hq L Hs. destruct (square_sum p q Hp Hq L) as (A & B). pose proof (squares_nn p q Hp Hq) as N. split.
  - eapply Rle_trans; [eapply sums_up; eauto|]. rewrite squares_length by exact L. unfold upper. apply Rmult_le_compat_r; [|exact A].
    pose proof (pow_up_ge1 (length p)). lra.
  - intros F. destruct (sums_low _ _ Hs N F) as (C & D). rewrite squares_length in C by exact L. eapply Rle_trans; [|exact C]. unfold lower.
    apply Rmult_le_compat_r; [apply pow_dn|auto].
Qed.
Lemma sqrt_fin s : nn s -> (is_finite s = true /\ is_finite (Bsqrt mode_NE s : b64) = true /\ B2R (Bsqrt mode_NE s : b64) = rnd (sqrt (B2R s)))
  \/ (s = finf /\ (Bsqrt mode_NE s : b64) = finf).
Proof.
  intros H. pose proof (sqrt_nn s H) as HS. apply nn_cases in H. destruct H as [(F & L)| ->]; [left|right; split; reflexivity].
  destruct (Bsqrt_correct 53 1024 _ _ mode_NE s) as (A & B & _). split; [exact F|]. split; [|exact A].
  rewrite B. destruct s as [a|a| |a m e Bd]; try discriminate F; [reflexivity|]. destruct a; [|reflexivity]. exfalso.
  pose proof (F2R_lt_0 radix2 (Float radix2 (Z.neg m) e) ltac:(reflexivity)). cbn in *. lra.
Qed.
Lemma dist_accuracy p q r : all_finite p -> all_finite q -> length p = length q -> fdistance p q r ->
  (is_finite r = true -> sqrt (lower (length p) (sq_dist p q)) * (1 - u53) - eta <= B2R r <= sqrt (upper (length p) (sq_dist p q)) * (1 + u53) + eta) /\
  (is_finite r = false -> r = finf /\ bpow radix2 512 <= sqrt (upper (length p) (sq_dist p q))).
Proof.
  intros Hp Hq L (s & Hs & ->). destruct (sum_bounds p q s Hp Hq L Hs) as (U & D). pose proof u53_pos as PU.
  pose proof (sums_nn _ _ Hs (squares_nn p q Hp Hq)) as N. destruct (sqrt_fin s N) as [(F1 & F2 & V)|(E1 & E2)].
  - split; [|congruence]. intros _. rewrite V. specialize (D F1). unfold val in U, D. rewrite F1 in U, D.
    pose proof (rnd_error (sqrt (B2R s)) (sqrt_pos _)) as (R1 & R2). apply sqrt_le_1_alt in U, D. split.
    + eapply Rle_trans; [|exact R1]. apply Rplus_le_compat_r. apply Rmult_le_compat_r; [lra|exact D].
    + eapply Rle_trans; [exact R2|]. apply Rplus_le_compat_r. apply Rmult_le_compat_r; [lra|exact U].
  - split; [rewrite E2; discriminate|]. intros _. split; [exact E2|]. rewrite E1 in U. change (val finf) with big in U.
    apply sqrt_le_1_alt in U. eapply Rle_trans; [|exact U]. unfold big. change 1024%Z with (2 * 512)%Z. rewrite sqrt_bpow. lra.
Qed.
Lemma fold_min_in : forall l m, In (fold_left (fun m y : b64 => if is_nan m then m else if is_nan y then y else if Bltb y m then y else m) l m) (m :: l).
Proof.
  induction l as [|y l IH]; intros m; [left; reflexivity|]. cbn [fold_left].
  match goal with |- In (fold_left _ l ?w) _ => destruct (IH w) as [E|E]; [rewrite <- E|right; right; exact E]; destruct (is_nan m); [left; reflexivity|destruct (is_nan y); [right; left; reflexivity|destruct (Bltb y m); [right; left; reflexivity|left; reflexivity]]] end.
Qed.
Lemma forall2_in_r (A B : Type) (R : A -> B -> Prop) : forall l l', Forall2 R l l' -> forall y, In y l' -> exists x, In x l /\ R x y.
Proof. induction 1; intros z Hz; [destruct Hz|]. destruct Hz as [<-|Hz]; [exists x; split; [left; reflexivity|assumption]|]. destruct (IHForall2 z Hz) as (w & W1 & W2). exists w. split; [right; exact W1|exact W2]. Qed.
Lemma forall2_in_l (A B : Type) (R : A -> B -> Prop) : forall l l', Forall2 R l l' -> forall x, In x l -> exists y, In y l' /\ R x y.
Proof. induction 1; intros z Hz; [destruct Hz|]. destruct Hz as [<-|Hz]; [exists y; split; [left; reflexivity|assumption]|]. destruct (IHForall2 z Hz) as (w & W1 & W2). exists w. split; [right; exact W1|exact W2]. Qed.
Lemma discard_accuracy md p nodes ans : is_finite md = true -> 0 <= B2R md <= bpow radix2 512 -> all_finite p -> nodes <> [] ->
  (forall q, In q nodes -> all_finite q /\ length q = length p) -> fdiscards md p nodes ans ->
  (ans = true -> exists q, In q nodes /\ sqrt (lower (length p) (sq_dist p q)) * (1 - u53) - eta <= B2R md) /\
  (ans = false -> forall q, In q nodes -> B2R md < sqrt (upper (length p) (sq_dist p q)) * (1 + u53) + eta).
Proof.
  intros Fm Hm Hp Hn Hq (ds & HF & EA). pose proof u53_pos as PU. pose proof eta_pos as PE.
  assert (NN : forall r, In r ds -> exists q, In q nodes /\ fdistance p q r /\ nn r).
  { intros r Hr. destruct (forall2_in_r _ _ _ _ _ HF r Hr) as (q & Q1 & Q2). exists q. split; [exact Q1|]. split; [exact Q2|]. apply (dist_nn p q r); auto. apply Hq. exact Q1. }
  assert (NH : ~ has_nan ds) by (intros (z & Z1 & Z2); destruct (NN z Z1) as (q & _ & _ & (X & _)); congruence).
  assert (ND : ds <> []) by (intros ->; inversion HF; subst; congruence).
  split; intros ->; symmetry in EA.
  - assert (IN : In (fminimum ds) ds) by (destruct ds as [|m l]; [congruence|apply fold_min_in]).
    destruct (NN _ IN) as (q & Q1 & Q2 & Q3). exists q. split; [exact Q1|]. destruct (Hq q Q1) as (HQ & LQ).
    destruct (dist_accuracy p q _ Hp HQ (eq_sym LQ) Q2) as (A & B).
    assert (F : is_finite (fminimum ds) = true).
    { apply nn_cases in Q3. destruct Q3 as [(F & _)|E]; [exact F|]. rewrite E in EA. destruct md as [|[|]| |[|]]; discriminate. }
    destruct (A F) as (A1 & _). apply leb_R in EA; auto. lra.
  - intros q Q1. destruct (forall2_in_l _ _ _ _ _ HF q Q1) as (r & R1 & R2). destruct (Hq q Q1) as (HQ & LQ).
    destruct (dist_accuracy p q r Hp HQ (eq_sym LQ) R2) as (A & B). destruct (fmin_spec ds ND NH) as (M1 & M2). specialize (M2 r R1).
    destruct (is_finite r) eqn:F.
    + destruct (A eq_refl) as (_ & A2). apply Rlt_le_trans with (B2R r); [|exact A2]. apply Rnot_le_lt. intros C. apply (leb_R r md F Fm) in C.
      pose proof (leb_trans _ _ _ M2 C). congruence.
    + destruct (B eq_refl) as (_ & B2). pose proof (bpow_gt_0 radix2 512). nra.
Qed.
