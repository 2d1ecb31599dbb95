(** General lemmas for the benchmark proofs. *)
From Coq Require Import List String ZArith QArith Reals Qreals Lra Lia Bool.
From Verif Require Import ModelBenchData ModelBench SpecBench.
Import ListNotations.
Open Scope R_scope.

Definition box (b : bench) (x : nat -> R) : Prop :=
  forall i, (i < b_dim b)%nat ->
    Q2R (nth i (b_lo b) 0%Q) <= x i <= Q2R (nth i (b_up b) 0%Q) /\
    (nth i (b_type b) TR <> TR -> exists k : Z, x i = IZR k).

Definition low (b : bench) (v : R) : Prop :=
  forall x, box b x -> exists y, b_f b x = Some y /\ v <= y.

Definition defined (b : bench) : Prop := forall x, box b x -> exists y, b_f b x = Some y.

Lemma low_never_below : forall b v, low b v -> never_below b v.
Proof.
  intros b v H p [Hl Hp]. unfold evaluate. rewrite Hl, Nat.eqb_refl.
  apply H. intros i Hi. apply Hp, Hi.
Qed.

Lemma low_defined : forall b v, low b v -> defined b.
Proof. intros b v H x Hx. destruct (H x Hx) as [y [Hy _]]. eauto. Qed.

Lemma guard_some : forall cs v, Forall (fun c => holds c = true) cs -> guard cs v = Some v.
Proof.
  intros cs v H. unfold guard. replace (forallb holds cs) with true; [reflexivity|].
  symmetry. apply forallb_forall. rewrite Forall_forall in H. auto.
Qed.

Lemma holds_nonzero : forall r, r <> 0 -> holds (NonZero r) = true.
Proof. intros. cbn. destruct (Req_EM_T r 0); [contradiction|reflexivity]. Qed.
Lemma holds_pos : forall r, 0 < r -> holds (Pos r) = true.
Proof. intros. cbn. destruct (Rlt_dec 0 r); [reflexivity|contradiction]. Qed.
Lemma holds_nonneg : forall r, 0 <= r -> holds (NonNeg r) = true.
Proof. intros. cbn. destruct (Rle_dec 0 r); [reflexivity|contradiction]. Qed.
Lemma holds_oneof : forall k l, existsb (Z.eqb k) l = true -> holds (OneOf (IZR k) l) = true.
Proof.
  intros k l H. cbn. apply existsb_exists in H. destruct H as [j [Hj He]].
  apply existsb_exists. exists j. split; [assumption|]. apply Z.eqb_eq in He. subst.
  destruct (Req_EM_T (IZR j) (IZR j)); [reflexivity|contradiction].
Qed.
Lemma Int_part_IZR : forall k, Int_part (IZR k) = k.
Proof.
  intros k. unfold Int_part. assert (E : up (IZR k) = (k + 1)%Z).
  { symmetry. apply tech_up; rewrite plus_IZR; lra. }
  rewrite E. lia.
Qed.
Lemma holds_index : forall k n, (0 <= k < n)%Z -> holds (Index (IZR k) n) = true.
Proof.
  intros k n H. cbn. rewrite Int_part_IZR. apply andb_true_intro. split; [apply Z.leb_le|apply Z.ltb_lt]; lia.
Qed.
Lemma row_IZR : forall t k, row t (IZR k) = nth (Z.to_nat k) t [].
Proof. intros. unfold row. rewrite Int_part_IZR. reflexivity. Qed.
Lemma pick_hit : forall k g l y, pick (IZR k) ((k, g) :: l) y = g y.
Proof. intros. cbn. destruct (Req_EM_T (IZR k) (IZR k)); [reflexivity|contradiction]. Qed.
Lemma pick_miss : forall v k g l y, v <> k -> pick (IZR v) ((k, g) :: l) y = pick (IZR v) l y.
Proof.
  intros. cbn. destruct (Req_EM_T (IZR v) (IZR k)) as [E|E]; [|reflexivity].
  apply eq_IZR in E. contradiction.
Qed.

Lemma Rmax0 : forall a, 0 <= Rmax 0 a.
Proof. intros. apply Rmax_l. Qed.
Lemma Rmaxr : forall a, a <= Rmax 0 a.
Proof. intros. apply Rmax_r. Qed.

(* Bounds of coordinate [i] of a point in the box [H]. *)
Ltac q2r H := unfold Q2R in H; cbn [Qnum Qden] in H.
Ltac bnd H i :=
  let Hi := fresh "B" in
  assert (Hi := proj1 (H i ltac:(cbn; lia))); cbn in Hi; q2r Hi; destruct Hi as [? ?].
Ltac int H i k :=
  let Hi := fresh "B" in
  assert (Hi := H i ltac:(cbn; lia)); cbn in Hi; q2r Hi;
  let L := fresh "L" in let U := fresh "U" in let E := fresh "E" in
  destruct Hi as [[L U] Hi]; destruct (Hi ltac:(discriminate)) as [k E]; clear Hi;
  rewrite E in *;
  let L' := fresh "L" k in let U' := fresh "U" k in
  match type of L with ?a * / 1 <= _ => assert (L' : a <= IZR k) by lra end;
  match type of U with _ <= ?a * / 1 => assert (U' : IZR k <= a) by lra end;
  apply le_IZR in L'; apply le_IZR in U'; clear L U E.
