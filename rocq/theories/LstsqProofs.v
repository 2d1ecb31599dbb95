(** * Least squares: normal equations, interpolation in the underdetermined case, linear models. *)
From Coq Require Import Reals Lra Lia List.
From Verif Require Import LinAlg KernelNodes SystemProofs.
From Verif Require Import RBFProofs RBFSolve RBFGlue AuxProofs AuxInverse SpecAux SpecLinear.
Import ListNotations.
Open Scope R_scope.

Definition resid (A : mat) (b x : list R) : list R := vsub (mat_vec A x) b.
Lemma sq_error_dot A b x : length b = length A -> sq_error A b x = rdot (resid A b x) (resid A b x).
Proof.
  intros H. unfold sq_error, resid, vsub. assert (E : length (mat_vec A x) = length b) by (rewrite mat_vec_length; auto).
  revert E. generalize (mat_vec A x) as u. clear H. induction b as [|c b IH]; intros [|a u] E; cbn in *; try discriminate; auto.
  unfold rsum in IH. rewrite IH by lia. ring.
Qed.
Lemma resid_length A b x : length b = length A -> length (resid A b x) = length A.
Proof. intros H. unfold resid, vsub. rewrite map2_len; rewrite mat_vec_length; auto. Qed.
Lemma sq_vadd r q : length r = length q -> rdot (vadd r q) (vadd r q) = rdot r r + 2 * rdot r q + rdot q q.
Proof.
  intros H. rewrite rdot_vadd by auto. rewrite (rdot_comm (vadd r q) r), (rdot_comm (vadd r q) q).
  rewrite !rdot_vadd by auto. rewrite (rdot_comm q r). ring.
Qed.
Lemma normal_equations A b x d : length b = length A -> length d = length x ->
  (forall y, length y = length x -> sq_error A b x <= sq_error A b y) -> rdot (resid A b x) (mat_vec A d) = 0.
Proof.
  intros Hb Hd Hm. set (r := resid A b x) in *. set (e := mat_vec A d).
  assert (Lr : length r = length A) by (apply resid_length; auto).
  assert (Le : length e = length A) by apply mat_vec_length.
  assert (Q : forall t, rdot r r <= rdot r r + 2 * t * rdot r e + t * t * rdot e e).
  { intros t. set (y := vadd x (map (Rmult t) d)).
    assert (Ly : length y = length x) by (unfold y, vadd; rewrite map2_len; rewrite ?map_length; auto).
    pose proof (Hm y Ly) as H. rewrite !sq_error_dot in H by auto.
    assert (E : resid A b y = vadd r (map (Rmult t) e)).
    { unfold resid, y. rewrite mat_vec_vadd by (rewrite map_length; auto). rewrite mat_vec_scale. fold e. unfold r, resid.
      clear - Hb Le. assert (L1 : length (mat_vec A x) = length b) by (rewrite mat_vec_length; auto).
      assert (L2 : length e = length b) by lia. revert L1 L2. generalize (mat_vec A x) as u, e as w. clear.
      induction b as [|c b IH]; intros [|a u] [|g w] L1 L2; cbn in *; try discriminate; auto.
      unfold vsub, vadd in *. cbn. f_equal; [ring|apply IH; lia]. }
    rewrite E in H. fold r in H.
    assert (L : length r = length (map (Rmult t) e)) by (rewrite map_length; lia).
    rewrite sq_vadd in H by auto. rewrite !rdot_scale_r in H. rewrite (rdot_comm (map _ _) e), rdot_scale_r in H. lra. }
  set (c := rdot r e) in *. set (h := rdot e e) in *. pose proof (self_nonneg e) as Hh. fold h in Hh.
  destruct (Req_dec c 0) as [|Hc]; auto. exfalso.
  pose proof (Q (- (c / (h + 1)))) as G. assert (Hi : 0 < / (h + 1)) by (apply Rinv_0_lt_compat; lra).
  unfold Rdiv in G. set (i := / (h + 1)) in *. assert (Ei : i * (h + 1) = 1) by (apply Rinv_l; lra).
  assert (0 <= -2 * (c * c * i) + c * c * i * (i * h)) by lra.
  assert (i * h = 1 - i) by lra. assert (0 < c * c) by nra. assert (0 < c * c * i) by nra. nra.
Qed.
(** A system that has a solution is solved. *)
Lemma consistent_solved A b x z : length b = length A -> length z = length x ->
  (forall y, length y = length x -> sq_error A b x <= sq_error A b y) -> mat_vec A z = b -> mat_vec A x = b.
Proof.
  intros Hb Hz Hm Ez. pose proof (normal_equations A b x (vsub x z) Hb) as N.
  rewrite mat_vec_vsub, Ez in N by auto. specialize (N ltac:(unfold vsub; rewrite map2_len; auto) Hm).
  fold (resid A b x) in N. apply self_zero in N. apply vsub_zero; [rewrite mat_vec_length; auto|].
  fold (resid A b x). rewrite N. f_equal. rewrite resid_length, mat_vec_length; auto.
Qed.

(** ** Underdetermined interpolation *)
Section Under.
  Variables (lstsq : lstsq_fun) (kind : rbf_kind) (gamma eps : R) (n : nat) (nodes : list rpoint) (exps : list (list nat)).
  Hypothesis Hls : correct_lstsq lstsq.
  Hypothesis Hn : in_dimension n nodes.
  Hypothesis Ht : no_tiny kind gamma eps nodes.
  Hypothesis Hn1 : exps <> [] -> (1 <= n)%nat.
  Hypothesis Hcat : degree_polynomial kind = 1%Z -> exps <> [] ->
    proper_blocks n exps /\ forall b x, In b exps -> In x nodes -> one_active b x.
  Hypothesis Hd : NoDup nodes.
  Hypothesis Hg : shape_ok kind gamma.
  Variable vals : list R.
  Hypothesis Hv : length vals = length nodes.
  Local Notation M := (sysM kind gamma n nodes exps).
  Local Notation B := (sysB kind gamma n nodes exps vals).
  Local Notation N := (size kind gamma n nodes exps).

  Lemma lstsq_solves x rank : lstsq M B = Some (x, rank) -> length x = N \/ M = [] -> mat_vec M x = B.
  Proof.
    intros E HL. pose proof (sysM_len kind gamma n nodes exps Hn) as LM.
    assert (LB : length B = N) by (apply sysB_len; auto).
    assert (D : M = [] \/ M <> []) by (destruct M; [left; reflexivity|right; discriminate]).
    destruct D as [EM|Hne].
    - rewrite EM in *. cbn in *. destruct B; [reflexivity|cbn in *; lia].
    - pose proof (sysM_rows kind gamma n nodes exps Hn) as RM.
      destruct (Hls M B N x rank RM ltac:(lia) Hne E) as (Lx & Hmin & _).
      assert (Hmin' : forall y, length y = length x -> sq_error M B x <= sq_error M B y) by (intros; apply Hmin; lia).
      set (r := resid M B x). assert (Lr : length r = N) by (unfold r; rewrite resid_length; lia).
      assert (NE : forall d, length d = N -> rdot r (mat_vec M d) = 0) by (intros; apply normal_equations; auto; lia).
      assert (Kr : mat_vec M r = zeros N).
      { apply nth_ext with 0 0; [rewrite mat_vec_length, zeros_length; auto|]. intros i Hi. rewrite mat_vec_length in Hi.
        assert (Z : rdot (mat_vec M r) (mat_vec M r) = 0).
        { rewrite <- (sysM_selfadjoint kind gamma n nodes exps Hn r (mat_vec M r)); [|auto|rewrite mat_vec_length; auto].
          apply NE. rewrite mat_vec_length; auto. }
        apply self_zero in Z. rewrite Z, !nth_zeros. auto. }
      destruct (kernel_weights kind gamma eps n nodes exps Hn Ht Hn1 Hcat Hd Hg r Lr Kr) as [W _].
      pose proof (lift_len kind gamma n nodes exps Hn r Lr) as LL.
      assert (O : rdot r B = 0).
      { rewrite lift_dot by auto. set (L := lift kind gamma n nodes exps r) in *.
        rewrite <- (firstn_skipn (length nodes) L), W. unfold rbf_rhs. rewrite rdot_app by (rewrite zeros_length; auto).
        rewrite rdot_zeros_l, rdot_zeros_r. ring. }
      assert (Z : rdot r r = 0).
      { unfold r at 2. unfold resid. rewrite rdot_vsub by (rewrite mat_vec_length; lia). rewrite NE, O by auto. ring. }
      apply self_zero in Z. apply vsub_zero; [rewrite mat_vec_length; lia|]. fold (resid M B x). fold r. rewrite Z. f_equal.
      rewrite mat_vec_length. lia.
  Qed.

  (** The solver that the least-squares routine amounts to. *)
  Definition exact_part : mat -> list R -> option (list R) := fun A b =>
    match lstsq A b with
    | Some (x, _) => if list_eq_dec Req_EM_T (mat_vec A x) b then if Nat.eq_dec (length x) (length b) then Some x else None else None
    | None => None
    end.
  Lemma exact_part_correct : correct_solver exact_part.
  Proof.
    intros A b x H. unfold exact_part in H. destruct (lstsq A b) as [[y r]|]; [|discriminate].
    destruct (list_eq_dec _ _ _); [|discriminate]. destruct (Nat.eq_dec _ _); [|discriminate]. injection H as <-. auto.
  Qed.
  Lemma mask_head : nodes <> [] -> M <> [].
  Proof.
    intros Hne E. pose proof (sysM_len kind gamma n nodes exps Hn) as L. rewrite E in L. cbn in L.
    unfold size in L. destruct (reduces _ _ _); [|destruct nodes; [tauto|cbn in L; lia]].
    set (m := column_mask _ _ _) in *.
    assert (Lm : length m = (length nodes + size_P kind n)%nat) by (unfold m; rewrite column_mask_length; apply exact_length; auto).
    assert (H0 : nth 0 m true = true).
    { destruct (nth 0 m true) eqn:En; auto. apply column_mask_false in En.
      - destruct En as (e & _ & En). destruct nodes; [tauto|cbn in En; lia].
      - unfold m in Lm. rewrite column_mask_length in Lm. rewrite Lm. destruct nodes; [tauto|cbn; lia]. }
    destruct m as [|[] m']; cbn in *; try lia; try discriminate. destruct nodes; [tauto|cbn in Lm; lia].
  Qed.
  Lemma underdet_interpolates lam h : nodes <> [] ->
    get_rbf_coefficients_underdet lstsq kind n (length nodes) (get_rbf_matrix kind gamma eps n nodes) vals exps = Some (lam, h) ->
    interpolates kind gamma n nodes vals lam h.
  Proof.
    intros Hne H. unfold get_rbf_coefficients_underdet in H.
    assert (H' : get_rbf_coefficients exact_part kind n (length nodes) (get_rbf_matrix kind gamma eps n nodes) vals exps = Some (lam, h)).
    { unfold get_rbf_coefficients in *. rewrite solution_sys in H |- * by auto.
      destruct (lstsq M B) as [[x rank]|] eqn:E; cbn in H; [|discriminate].
      assert (Hx : length x = N).
      { apply (Hls M B N x rank); auto; [apply sysM_rows; auto|rewrite sysB_len, sysM_len; auto|apply mask_head; auto]. }
      pose proof (lstsq_solves x rank E (or_introl Hx)) as S. unfold exact_part. rewrite E.
      destruct (list_eq_dec Req_EM_T (mat_vec M x) B) as [_|Nq]; [|tauto].
      destruct (Nat.eq_dec (length x) (length B)) as [_|Nq]; [cbn; exact H|]. exfalso. apply Nq. rewrite sysB_len; auto. }
    destruct (coefficients_solve exact_part kind gamma eps n nodes vals exps lam h) as (L1 & L2 & L3); auto.
    - apply exact_part_correct.
    - intros He Hk. split; [apply Ht|]. apply Hcat; auto.
    - apply (solution_interpolates kind gamma eps); auto.
  Qed.
End Under.

(** ** Linear models *)
Section LinearModel.
  Variables (lstsq : lstsq_fun) (n : nat) (nodes : list rpoint) (vals : list R) (set : list nat).
  Hypothesis Hls : correct_lstsq lstsq.
  Hypothesis Hn : forall i, In i set -> length (nth i nodes []) = n.
  Hypothesis Hne : set <> [].
  Local Notation A := (model_rows nodes set).
  Local Notation b := (map (fun i => nth i vals 0) set).

  Lemma mrows : rows_of (n + 1) A.
  Proof. intros r Hr. apply in_map_iff in Hr. destruct Hr as (i & <- & Hi). rewrite app_length, Hn; auto. Qed.
  Lemma mlen : length b = length A.
  Proof. unfold model_rows. rewrite !map_length. auto. Qed.
  Lemma mne : A <> [].
  Proof. unfold model_rows. destruct set; [tauto|discriminate]. Qed.
  Lemma split_vec (x : list R) : length x = (n + 1)%nat -> x = firstn n x ++ [last x 0].
  Proof.
    intros H. assert (E : x = removelast x ++ [last x 0]) by (apply app_removelast_last; destruct x; [cbn in H; lia|discriminate]).
    rewrite E at 1. f_equal. rewrite E at 2. rewrite firstn_app, removelast_len.
    replace (n - (length x - 1))%nat with 0%nat by lia. cbn. rewrite app_nil_r. symmetry. apply firstn_all2. rewrite removelast_len. lia.
  Qed.
  Lemma row_affine y h c : length y = length h -> rdot (y ++ [1]) (h ++ [c]) = affine h c y.
  Proof. intros H. rewrite rdot_snoc by auto. unfold affine. rewrite rdot_comm. ring. Qed.
  Lemma agrees_vec h c : length h = n -> mat_vec A (h ++ [c]) = b <-> agrees_on (model_data nodes vals set) h c.
  Proof.
    intros Hh. unfold agrees_on, model_data, model_rows, mat_vec. rewrite map_map. split.
    - intros E x v Hx. apply in_map_iff in Hx. destruct Hx as (i & Ei & Hi). injection Ei as <- <-.
      rewrite <- row_affine by (rewrite Hn; auto).
      assert (G : forall l, map (fun i => rdot (nth i nodes [] ++ [1]) (h ++ [c])) l = map (fun i => nth i vals 0) l ->
        forall i, In i l -> rdot (nth i nodes [] ++ [1]) (h ++ [c]) = nth i vals 0).
      { clear. induction l as [|j l IH]; intros E i Hi; [destruct Hi|]. cbn in E. injection E as E1 E2. destruct Hi as [<-|Hi]; auto. }
      apply (G set E i Hi).
    - intros H. apply map_ext_in. intros i Hi. rewrite row_affine by (rewrite Hn; auto). apply H. apply in_map_iff. eauto.
  Qed.
  Lemma vanish_vec h c : length h = n ->
    mat_vec A (h ++ [c]) = zeros (length A) <-> forall x, In x (map (fun i => nth i nodes []) set) -> affine h c x = 0.
  Proof.
    intros Hh. unfold model_rows, mat_vec. rewrite map_map, map_length. split.
    - intros E x Hx. apply in_map_iff in Hx. destruct Hx as (i & <- & Hi). rewrite <- row_affine by (rewrite Hn; auto).
      assert (In (rdot (nth i nodes [] ++ [1]) (h ++ [c])) (zeros (length set))) as G.
      { rewrite <- E. apply in_map_iff. eauto. }
      apply repeat_spec in G. auto.
    - intros H. assert (G : forall l, incl l set -> map (fun i => rdot (nth i nodes [] ++ [1]) (h ++ [c])) l = zeros (length l)).
      { induction l as [|i l IH]; intros Hi; cbn; auto. unfold zeros in *. cbn. f_equal.
        - rewrite row_affine by (rewrite Hn; auto; apply Hi; left; auto). apply H. apply in_map_iff. exists i. split; auto. apply Hi. left; auto.
        - apply IH. intros j Hj. apply Hi. right; auto. }
      apply G, incl_refl.
  Qed.

  Variables (h : rpoint) (c : R) (flag : bool).
  Hypothesis Hm : get_linear_model lstsq n nodes vals set = Some (h, c, flag).
  Lemma model_facts : exists rank, lstsq A b = Some (h ++ [c], rank) /\ length h = n /\ flag = (rank <? length set)%nat /\
    (forall y, length y = length (h ++ [c]) -> sq_error A b (h ++ [c]) <= sq_error A b y) /\
    ((rank < length A)%nat <-> dependent_rows A (n + 1)).
  Proof.
    unfold get_linear_model in Hm. destruct (lstsq A b) as [[x rank]|] eqn:E; [|discriminate].
    injection Hm as E1 E2 E3.
    destruct (Hls A b (n + 1)%nat x rank mrows mlen mne E) as (Lx & Hmin & Hr).
    assert (Ex : x = h ++ [c]) by (rewrite <- E1, <- E2; apply split_vec; auto).
    exists rank. rewrite <- Ex. split; [congruence|]. split; [rewrite <- E1, firstn_length; lia|]. split; [auto|]. split; auto.
    intros y Hy. apply Hmin. lia.
  Qed.
  Lemma len_A : length A = length set.
  Proof. apply map_length. Qed.
  Lemma flag_spec : flag = true <-> dependent_rows A (n + 1).
  Proof.
    destruct model_facts as (rank & _ & _ & -> & _ & H). rewrite Nat.ltb_lt, <- len_A. exact H.
  Qed.
  Lemma flag_independent : flag = false <-> independent A (n + 1).
  Proof.
    pose proof flag_spec as F. split.
    - intros Hf w Hw G. destruct (zeros_or_not w) as [E|(q & Hq & Hnz)]; [rewrite E; f_equal; auto|].
      exfalso. assert (flag = true); [|congruence]. apply F. exists w. repeat split; auto. intros ->. rewrite nth_zeros in Hnz. auto.
    - intros I. destruct flag; auto. exfalso. destruct F as [F _]. destruct (F eq_refl) as (w & Lw & Nw & Gw). apply Nw. apply I; auto.
  Qed.
  Lemma full_rank_agrees : flag = false -> agrees_on (model_data nodes vals set) h c.
  Proof.
    intros Hf. apply flag_independent in Hf. destruct model_facts as (rank & E & Lh & _ & Hmin & _).
    apply agrees_vec; auto. pose proof (proj1 (independent_iff (n + 1) A mrows) Hf (resid A b (h ++ [c]))) as Z.
    rewrite (resid_length A b) in Z by apply mlen. specialize (Z eq_refl).
    assert (L : length (h ++ [c]) = (n + 1)%nat) by (rewrite app_length; cbn; lia).
    assert (Z' : resid A b (h ++ [c]) = zeros (length A)).
    { apply Z. intros d Hd. apply normal_equations; auto; [apply mlen|lia]. }
    apply vsub_zero; [rewrite mat_vec_length; symmetry; apply mlen|]. rewrite mat_vec_length. exact Z'.
  Qed.
  Lemma consistent_agrees h' c' : length h' = n -> agrees_on (model_data nodes vals set) h' c' ->
    agrees_on (model_data nodes vals set) h c.
  Proof.
    intros Hh' Ha. destruct model_facts as (rank & E & Lh & _ & Hmin & _). apply agrees_vec in Ha; auto. apply agrees_vec; auto.
    apply (consistent_solved A b (h ++ [c]) (h' ++ [c'])); auto; [apply mlen|rewrite !app_length; cbn; lia].
  Qed.
  Lemma best_fit h' c' : length h' = n ->
    rsum (map (fun i => (affine h c (nth i nodes []) - nth i vals 0) * (affine h c (nth i nodes []) - nth i vals 0)) set) <=
    rsum (map (fun i => (affine h' c' (nth i nodes []) - nth i vals 0) * (affine h' c' (nth i nodes []) - nth i vals 0)) set).
  Proof.
    intros Hh'. destruct model_facts as (rank & E & Lh & _ & Hmin & _).
    assert (S : forall g d, length g = n -> sq_error A b (g ++ [d]) =
      rsum (map (fun i => (affine g d (nth i nodes []) - nth i vals 0) * (affine g d (nth i nodes []) - nth i vals 0)) set)).
    { intros g d Hg. unfold sq_error. assert (G : forall l, incl l set ->
        map2 (fun u v => (u - v) * (u - v)) (mat_vec (model_rows nodes l) (g ++ [d])) (map (fun i => nth i vals 0) l) =
        map (fun i => (affine g d (nth i nodes []) - nth i vals 0) * (affine g d (nth i nodes []) - nth i vals 0)) l).
      { induction l as [|i l IH]; intros Hi; cbn; auto. rewrite row_affine by (rewrite Hn; auto; apply Hi; left; auto).
        f_equal. apply IH. intros j Hj. apply Hi; right; auto. }
      rewrite (G set (incl_refl _)). auto. }
    rewrite <- !S by auto. apply Hmin. rewrite !app_length. cbn. lia.
  Qed.
  Lemma square_flag : length set = (n + 1)%nat ->
    flag = false <-> determining n (map (fun i => nth i nodes []) set).
  Proof.
    intros Hsq. rewrite flag_independent.
    assert (E : injective (n + 1) A <-> determining n (map (fun i => nth i nodes []) set)).
    { split.
      - intros I g d Hg Hz. apply vanish_vec in Hz; auto.
        pose proof (I (g ++ [d]) ltac:(rewrite app_length; cbn; lia) Hz) as Z.
        replace (zeros (n + 1)) with (zeros n ++ [0]) in Z by (rewrite <- (zeros_app n 1); auto).
        apply app_inj_tail in Z. auto.
      - intros D x Lx Ex. rewrite (split_vec x Lx) in Ex |- *.
        assert (Lf : length (firstn n x) = n) by (rewrite firstn_length; lia).
        destruct (D (firstn n x) (last x 0) Lf) as [Z1 Z2]; [apply vanish_vec; auto|]. rewrite Z1, Z2.
        rewrite <- (zeros_app n 1). auto. }
    rewrite <- E. split.
    - apply independent_injective; [apply mrows|rewrite len_A; auto].
    - apply injective_independent; [apply mrows|rewrite len_A; auto].
  Qed.
  Lemma too_few : (length set <= n)%nat -> ~ determining n (map (fun i => nth i nodes []) set).
  Proof.
    intros Hf D. destruct (wide_kernel (n + 1) A mrows) as (y & Ly & Ny & Ey); [rewrite len_A; lia|].
    rewrite (split_vec y Ly) in Ey. assert (Lf : length (firstn n y) = n) by (rewrite firstn_length; lia).
    destruct (D (firstn n y) (last y 0) Lf) as [Z1 Z2]; [apply vanish_vec; auto|]. apply Ny.
    rewrite (split_vec y Ly), Z1, Z2, <- (zeros_app n 1). auto.
  Qed.
End LinearModel.
