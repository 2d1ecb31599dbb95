(** * Linear systems over lists of rows.  Proof library. *)
From Coq Require Import Reals Lra Lia List.
From Verif Require Import ModelRBF RBFProofs RBFSolve AuxProofs AuxInverse.
Import ListNotations.
Open Scope R_scope.

Definition rows_of (c : nat) (A : mat) : Prop := forall r, In r A -> length r = c.
Definition vadd (u v : list R) : list R := map2 Rplus u v.
Definition vsub (u v : list R) : list R := map2 Rminus u v.

Lemma map2_len {X Y Z} (f : X -> Y -> Z) a : forall b, length a = length b -> length (map2 f a b) = length a.
Proof. induction a as [|x a IH]; intros [|y b] H; cbn in *; try discriminate; auto. Qed.
Lemma rdot_vadd r u : forall v, length u = length v -> rdot r (vadd u v) = rdot r u + rdot r v.
Proof.
  revert r. induction u as [|a u IH]; intros [|c r] [|b v] H; cbn in *; try discriminate; try ring.
  fold (vadd u v). rewrite IH by lia. ring.
Qed.
Lemma rdot_vsub r u : forall v, length u = length v -> rdot r (vsub u v) = rdot r u - rdot r v.
Proof.
  revert r. induction u as [|a u IH]; intros [|c r] [|b v] H; cbn in *; try discriminate; try ring.
  fold (vsub u v). rewrite IH by lia. ring.
Qed.
Lemma mat_vec_length A x : length (mat_vec A x) = length A.
Proof. apply map_length. Qed.
Lemma mat_vec_vadd A u v : length u = length v -> mat_vec A (vadd u v) = vadd (mat_vec A u) (mat_vec A v).
Proof. intros H. induction A as [|r A IH]; cbn; auto. unfold vadd at 2. cbn. f_equal; [apply rdot_vadd; auto|exact IH]. Qed.
Lemma mat_vec_vsub A u v : length u = length v -> mat_vec A (vsub u v) = vsub (mat_vec A u) (mat_vec A v).
Proof. intros H. induction A as [|r A IH]; cbn; auto. unfold vsub at 2. cbn. f_equal; [apply rdot_vsub; auto|exact IH]. Qed.
Lemma vsub_self u : vsub u u = zeros (length u).
Proof. induction u as [|a u IH]; cbn; auto. unfold vsub in IH. rewrite IH. unfold zeros. cbn. f_equal. ring. Qed.
Lemma vsub_zero u : forall v, length u = length v -> vsub u v = zeros (length u) -> u = v.
Proof.
  induction u as [|a u IH]; intros [|b v] H E; cbn in *; try discriminate; auto.
  unfold zeros in *. cbn in E. injection E as E1 E2. f_equal; [lra|]. apply IH; auto.
Qed.
Lemma zeros_length n : length (zeros n) = n.
Proof. apply repeat_length. Qed.
Lemma rdot_zeros_l n v : rdot (zeros n) v = 0.
Proof. unfold zeros. revert v. induction n as [|n IH]; intros [|a v]; cbn; auto. rewrite IH. ring. Qed.
Lemma rdot_zeros_r n v : rdot v (zeros n) = 0.
Proof. rewrite rdot_comm. apply rdot_zeros_l. Qed.
Lemma mat_vec_zeros A n : mat_vec A (zeros n) = zeros (length A).
Proof. induction A as [|r A IH]; cbn; auto. unfold zeros at 2. cbn. fold (zeros (length A)). rewrite rdot_zeros_r, <- IH. auto. Qed.
Lemma self_zero u : rdot u u = 0 -> u = zeros (length u).
Proof.
  induction u as [|a u IH]; cbn; auto. intros H.
  assert (P : 0 <= rdot u u) by (clear; induction u; cbn; [lra|nra]).
  assert (a = 0) by nra. subst. unfold zeros. cbn. f_equal. apply IH. nra.
Qed.
Lemma self_nonneg u : 0 <= rdot u u.
Proof. induction u; cbn; [lra|nra]. Qed.
Lemma zeros_or_not (u : list R) : u = zeros (length u) \/ exists p, (p < length u)%nat /\ nth p u 0 <> 0.
Proof.
  induction u as [|a u [IH|(p & Hp & Hn)]]; [left; auto| |right].
  - destruct (Req_dec a 0) as [->|E]; [left; cbn; unfold zeros in *; cbn; f_equal; auto|right; exists 0%nat; cbn; split; [lia|auto]].
  - exists (S p). cbn. split; [lia|auto].
Qed.
Lemma scale_length a (u : list R) : length (map (Rmult a) u) = length u.
Proof. apply map_length. Qed.

(** More unknowns than equations. *)
Lemma wide_kernel N : forall A, rows_of N A -> (length A < N)%nat ->
  exists y, length y = N /\ y <> zeros N /\ mat_vec A y = zeros (length A).
Proof.
  induction N as [|N IH]; intros A HA Hl; [lia|].
  assert (D : (forall r, In r A -> nth 0 r 0 = 0) \/ exists r, In r A /\ nth 0 r 0 <> 0).
  { clear. induction A as [|r A [IH|(r' & H1 & H2)]]; [left; intros ? []| |right; exists r'; split; [right; auto|auto]].
    destruct (Req_dec (nth 0 r 0) 0) as [E|E]; [left; intros r' [<-|H]; auto|right; exists r; split; [left; auto|auto]]. }
  destruct D as [D|(r0 & Hr0 & Ha)].
  - exists (1 :: zeros N). cbn [length]. rewrite zeros_length. split; auto. split.
    + unfold zeros. cbn. intros E. injection E as E. lra.
    + apply nth_ext with 0 0; [rewrite mat_vec_length, zeros_length; auto|].
      intros i Hi. rewrite mat_vec_length in Hi. rewrite nth_mat_vec, nth_zeros by auto.
      pose proof (D _ (nth_In A [] Hi)) as Z. destruct (nth i A []) as [|c r]; cbn in *; auto.
      rewrite rdot_zeros_r, Z. ring.
  - destruct (in_split _ _ Hr0) as (u & v & EA).
    pose proof (HA r0 Hr0) as L0. destruct r0 as [|a t0]; [cbn in L0; lia|]. cbn in L0, Ha.
    set (red := fun r : list R => vsub (tl r) (map (Rmult (nth 0 r 0 / a)) t0)).
    assert (Lt : forall r, In r A -> length (tl r) = length t0).
    { intros r Hr. pose proof (HA r Hr). destruct r; cbn in *; lia. }
    destruct (IH (map red (u ++ v))) as (y & Ly & Ny & Ey).
    + intros r Hr. apply in_map_iff in Hr. destruct Hr as (q & <- & Hq). unfold red, vsub.
      assert (In q A) by (rewrite EA; apply in_or_app; apply in_app_or in Hq; destruct Hq; auto; right; right; auto).
      rewrite map2_len by (rewrite map_length; apply Lt; auto). rewrite (Lt q) by auto. lia.
    + rewrite map_length, app_length. rewrite EA, app_length in Hl. cbn in Hl. lia.
    + assert (Z : forall r, In r (u ++ v) -> rdot (tl r) y = nth 0 r 0 / a * rdot t0 y).
      { intros r Hr. assert (G : rdot (red r) y = 0).
        { assert (In (rdot (red r) y) (mat_vec (map red (u ++ v)) y)) as HI.
          { unfold mat_vec. rewrite map_map. apply in_map_iff. exists r. auto. }
          rewrite Ey in HI. unfold zeros in HI. apply repeat_spec in HI. auto. }
        unfold red in G. rewrite rdot_comm, rdot_vsub, rdot_scale_r, (rdot_comm y), (rdot_comm y) in G; [lra|].
        rewrite map_length. apply Lt. rewrite EA. apply in_or_app. apply in_app_or in Hr. destruct Hr; auto. right; right; auto. }
      exists (- rdot t0 y / a :: y). cbn [length]. rewrite Ly. split; auto. split.
      { unfold zeros. cbn. intros E. injection E as _ E. auto. }
      apply nth_ext with 0 0; [rewrite mat_vec_length, zeros_length; auto|].
      intros i Hi. rewrite mat_vec_length in Hi. rewrite nth_mat_vec, nth_zeros by auto.
      pose proof (nth_In A [] Hi) as HIn. set (r := nth i A []) in *.
      assert (E : rdot r (- rdot t0 y / a :: y) = nth 0 r 0 * (- rdot t0 y / a) + rdot (tl r) y).
      { destruct r; cbn; [|auto]. pose proof (HA _ HIn). cbn in *. lia. }
      rewrite E. rewrite EA in HIn. apply in_app_or in HIn.
      assert (C : r = a :: t0 \/ In r (u ++ v)).
      { destruct HIn as [H|[H|H]]; [right; apply in_or_app; auto|left; auto|right; apply in_or_app; auto]. }
      destruct C as [->|C].
      * cbn. field. auto.
      * rewrite (Z r C). field. auto.
Qed.

Definition injective (N : nat) (A : mat) : Prop :=
  forall x, length x = N -> mat_vec A x = zeros (length A) -> x = zeros N.
Definition independent (A : mat) (N : nat) : Prop :=
  forall w, length w = length A -> (forall j, (j < N)%nat -> rdot w (map (fun r => nth j r 0) A) = 0) -> w = zeros (length A).

Lemma rdot_snoc u a v b : length u = length v -> rdot (u ++ [a]) (v ++ [b]) = rdot u v + a * b.
Proof. intros H. rewrite rdot_app by auto. cbn. ring. Qed.
Lemma square_surjective N A b : rows_of N A -> length A = N -> injective N A -> length b = N ->
  exists x, length x = N /\ mat_vec A x = b.
Proof.
  intros HA HN Hi Hb.
  destruct (wide_kernel (S N) (map2 (fun r c => r ++ [c]) A b)) as (y & Ly & Ny & Ey).
  { clear - HA HN Hb. assert (E : length A = length b) by lia. clear HN Hb. revert b E.
    induction A as [|r A IH]; intros [|c b] E q Hq; cbn in *; try tauto; try discriminate.
    destruct Hq as [<-|Hq]; [rewrite app_length; cbn; rewrite (HA r) by (left; auto); lia|].
    apply (IH (fun q Hq => HA q (or_intror Hq)) b); auto. }
  { rewrite map2_len; lia. }
  rewrite map2_len in Ey by lia.
  destruct (exists_last (l := y)) as (x & c & ->); [destruct y; [cbn in Ly; lia|discriminate]|].
  rewrite app_length in Ly. cbn in Ly. assert (Lx : length x = N) by lia.
  assert (G : forall i, (i < N)%nat -> rdot (nth i A []) x + nth i b 0 * c = 0).
  { intros i Hi'. assert (E : nth i (mat_vec (map2 (fun r c => r ++ [c]) A b) (x ++ [c])) 0 = 0) by (rewrite Ey; apply nth_zeros).
    rewrite nth_mat_vec in E by (rewrite map2_len; lia).
    assert (M : nth i (map2 (fun r c => r ++ [c]) A b) [] = nth i A [] ++ [nth i b 0]).
    { clear - HN Hb Hi'. assert (E : length A = length b) by lia. assert (Hi'' : (i < length A)%nat) by lia. clear HN Hb Hi'.
      revert b i E Hi''. induction A as [|r A IH]; intros [|d b] [|i] E Hi''; cbn in *; try lia; try discriminate; auto. apply IH; lia. }
    rewrite M, rdot_snoc in E; auto. rewrite (HA (nth i A [])), Lx; auto. apply nth_In. lia. }
  assert (Hc : c <> 0).
  { intros ->. apply Ny. assert (x = zeros N) as ->.
    - apply Hi; auto. apply nth_ext with 0 0; [rewrite mat_vec_length, zeros_length; auto|].
      intros i Hi'. rewrite mat_vec_length in Hi'. rewrite nth_mat_vec, nth_zeros by auto. pose proof (G i ltac:(lia)). lra.
    - unfold zeros. rewrite <- repeat_cons. reflexivity. }
  exists (map (Rmult (- / c)) x). rewrite map_length. split; auto.
  rewrite mat_vec_scale. apply nth_ext with 0 0; [rewrite map_length, mat_vec_length; lia|].
  intros i Hi'. rewrite map_length, mat_vec_length in Hi'.
  rewrite (nth_map_in (Rmult (- / c)) _ _ 0) by (rewrite mat_vec_length; auto). rewrite nth_mat_vec by auto.
  pose proof (G i ltac:(lia)). assert (rdot (nth i A []) x = - nth i b 0 * c) as -> by lra. field. auto.
Qed.

(** Columns as vectors: [rdot (A d) v] expands over the columns. *)
Lemma rdot_mat_vec N A : rows_of N A -> forall w d, length w = length A -> length d = N ->
  rdot w (mat_vec A d) = rdot (map (fun j => rdot w (map (fun r => nth j r 0) A)) (seq 0 N)) d.
Proof. intros HA w d Hw Hd. symmetry. apply vec_mat_swap; auto. Qed.
Lemma independent_iff N A : rows_of N A ->
  independent A N <-> forall w, length w = length A -> (forall d, length d = N -> rdot w (mat_vec A d) = 0) -> w = zeros (length A).
Proof.
  intros HA. split; intros H w Hw G; apply H; auto.
  - intros j Hj. pose proof (G (set_at j 1 (zeros N)) ltac:(rewrite set_at_length; apply zeros_length)) as E.
    rewrite (rdot_mat_vec N) in E by (auto; rewrite set_at_length; apply zeros_length).
    assert (U : forall f, rdot (map f (seq 0 N)) (set_at j 1 (zeros N)) = f j).
    { intros f. clear - Hj. assert (Gm : forall M s j, (j < M)%nat -> rdot (map f (seq s M)) (set_at j 1 (zeros M)) = f (s + j)%nat).
      { induction M as [|M IH]; intros s i Hi; [lia|]. unfold zeros. cbn [seq map repeat]. destruct i as [|i]; cbn [set_at rdot].
        - fold (zeros M). rewrite rdot_zeros_r, Nat.add_0_r. ring.
        - fold (zeros M). rewrite IH by lia. replace (S s + i)%nat with (s + S i)%nat by lia. ring. }
      rewrite Gm by auto. auto. }
    rewrite U in E. exact E.
  - intros d Hd. rewrite (rdot_mat_vec N) by auto.
    assert (Z : map (fun j => rdot w (map (fun r => nth j r 0) A)) (seq 0 N) = zeros N).
    { apply nth_ext with 0 0; [rewrite map_length, seq_length, zeros_length; auto|]. intros i Hi. rewrite map_length, seq_length in Hi.
      rewrite (nth_map_in _ _ _ 0%nat) by (rewrite seq_length; auto). rewrite seq_nth, nth_zeros by auto. apply G. auto. }
    rewrite Z. apply rdot_zeros_l.
Qed.

(** Square matrices: independent rows iff trivial kernel. *)
Lemma injective_independent N A : rows_of N A -> length A = N -> injective N A -> independent A N.
Proof.
  intros HA HN Hi. apply independent_iff; auto. intros w Hw G.
  destruct (square_surjective N A w HA HN Hi ltac:(lia)) as (x & Lx & Ex).
  pose proof (G x Lx) as E. rewrite Ex in E. apply self_zero in E. rewrite E at 1. f_equal. auto.
Qed.
Definition tr (N : nat) (A : mat) : mat := transpose N A.
Lemma tr_rows N A : rows_of (length A) (tr N A).
Proof. intros r Hr. apply in_map_iff in Hr. destruct Hr as (j & <- & _). apply map_length. Qed.
Lemma tr_length N A : length (tr N A) = N.
Proof. unfold tr, transpose. rewrite map_length, seq_length. auto. Qed.
Lemma tr_mat_vec N A w j : (j < N)%nat -> nth j (mat_vec (tr N A) w) 0 = rdot w (map (fun r => nth j r 0) A).
Proof.
  intros Hj. rewrite nth_mat_vec by (rewrite tr_length; auto). unfold tr, transpose.
  rewrite (nth_map_in _ _ _ 0%nat) by (rewrite seq_length; auto). rewrite seq_nth by auto. apply rdot_comm.
Qed.
Lemma independent_injective N A : rows_of N A -> length A = N -> independent A N -> injective N A.
Proof.
  intros HA HN Hi.
  assert (T : injective N (tr N A)).
  { intros w Hw E. rewrite <- HN. apply Hi; [lia|]. intros j Hj. rewrite <- (tr_mat_vec N) by auto. rewrite E. apply nth_zeros. }
  assert (Tr : rows_of N (tr N A)) by (rewrite <- HN at 1; apply tr_rows).
  pose proof (injective_independent N (tr N A) Tr (tr_length N A) T) as I.
  intros x Lx Ex. rewrite <- (tr_length N A) at 1. apply I; [rewrite tr_length; auto|].
  intros i Hi'. assert (C : map (fun r => nth i r 0) (tr N A) = nth i A []).
  { unfold tr, transpose. rewrite map_map. apply nth_ext with 0 0.
    - rewrite map_length, seq_length. symmetry. apply HA, nth_In. lia.
    - intros j Hj. rewrite map_length, seq_length in Hj. rewrite (nth_map_in _ _ _ 0%nat) by (rewrite seq_length; auto).
      rewrite seq_nth by auto. cbn. rewrite (nth_map_in _ _ _ ([] : list R)) by lia. auto. }
  rewrite C, rdot_comm, <- nth_mat_vec by lia. rewrite Ex. apply nth_zeros.
Qed.
