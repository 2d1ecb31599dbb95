(** * A solver that meets the hypotheses of the theorems: Gaussian elimination on real numbers. *)
From Coq Require Import Reals Lra Lia List.
From Verif Require Import LinAlg KernelNodes RBFProofs SpecLinear.
Import ListNotations.
Open Scope R_scope.

(** An equation: coefficients and right-hand side. *)
Definition equation := (list R * R)%type.
Definition holds (x : list R) (e : equation) : Prop := rdot (fst e) x = snd e.
(** First equation with a nonzero leading coefficient, and the others. *)
Fixpoint pivot (es : list equation) : option (equation * list equation) :=
  match es with
  | [] => None
  | e :: r => if Req_EM_T (hd 0 (fst e)) 0
              then match pivot r with None => None | Some (q, s) => Some (q, e :: s) end
              else Some (e, r)
  end.
Definition eliminate (q e : equation) : equation :=
  let t := hd 0 (fst e) / hd 0 (fst q) in
  (map2 (fun a b => a - t * b) (tl (fst e)) (tl (fst q)), snd e - t * snd q).
Fixpoint eliminations (m : nat) (es : list equation) : option (list R) :=
  match m with
  | O => Some []
  | S m' =>
      match pivot es with
      | None => None
      | Some (q, rest) =>
          match eliminations m' (map (eliminate q) rest) with
          | None => None
          | Some x => Some ((snd q - rdot (tl (fst q)) x) / hd 0 (fst q) :: x)
          end
      end
  end.
Definition gauss (A : mat) (b : list R) : option (list R) :=
  match eliminations (length A) (combine A b) with
  | None => None
  | Some x => if Nat.eq_dec (length x) (length b) then if list_eq_dec Req_EM_T (mat_vec A x) b then Some x else None else None
  end.
Lemma gauss_correct : correct_solver gauss.
Proof.
  intros A b x. unfold gauss. destruct (eliminations _ _) as [y|]; [|discriminate].
  destruct (Nat.eq_dec _ _); [|discriminate]. destruct (list_eq_dec _ _ _); [|discriminate]. intros H. injection H as <-. auto.
Qed.
Lemma pivot_some es : forall q r, pivot es = Some (q, r) ->
  hd 0 (fst q) <> 0 /\ S (length r) = length es /\ (forall e, In e es <-> e = q \/ In e r).
Proof.
  induction es as [|e es IH]; cbn; intros q r H; [discriminate|]. destruct (Req_EM_T (hd 0 (fst e)) 0).
  - destruct (pivot es) as [[q' s]|]; [|discriminate]. injection H as <- <-. destruct (IH q' s eq_refl) as (A & B & C).
    split; auto. split; [cbn; lia|]. intros f. rewrite C. cbn. tauto.
  - injection H as <- <-. split; auto. split; auto. intros f. split; intros [?|?]; auto.
Qed.
Lemma pivot_none es : pivot es = None -> forall e, In e es -> hd 0 (fst e) = 0.
Proof.
  induction es as [|e es IH]; cbn; intros H f Hf; [tauto|]. destruct (Req_EM_T (hd 0 (fst e)) 0); [|discriminate].
  destruct (pivot es) as [[q s]|]; [discriminate|]. destruct Hf as [<-|Hf]; auto.
Qed.
Lemma dot_elim c : forall d x t, length c = length d -> rdot (map2 (fun a b => a - t * b) c d) x = rdot c x - t * rdot d x.
Proof. induction c as [|a c IH]; intros [|b d] [|y x] t H; cbn in *; try discriminate; try ring. rewrite IH by lia. ring. Qed.
(** The only solution of the homogeneous equations is 0. *)
Definition trivial_kernel (m : nat) (es : list equation) : Prop :=
  forall x, length x = m -> (forall e, In e es -> rdot (fst e) x = 0) -> x = zeros m.
Lemma eliminations_ok m : forall es, (forall e, In e es -> length (fst e) = m) -> length es = m -> trivial_kernel m es ->
  exists x, eliminations m es = Some x /\ length x = m /\ forall e, In e es -> holds x e.
Proof.
  induction m as [|m IH]; intros es He Hl Hk; cbn [eliminations].
  - exists []. split; auto. split; auto. destruct es; [|discriminate]. intros e [].
  - destruct (pivot es) as [[q rest]|] eqn:P.
    + destruct (pivot_some es q rest P) as (Q1 & Q2 & Q3).
      assert (Lq : length (fst q) = S m) by (apply He, Q3; auto).
      destruct (fst q) as [|c cs] eqn:Eq; [discriminate|]. cbn in Q1, Lq.
      assert (EL : forall e, In e rest -> exists a l, fst e = a :: l /\ length l = m).
      { intros e Hin. assert (L : length (fst e) = S m) by (apply He, Q3; auto). destruct (fst e) as [|a l]; [discriminate|]. exists a, l. cbn in L. auto. }
      assert (EE : forall e a l x, fst e = a :: l -> length l = m -> rdot (fst (eliminate q e)) x = rdot l x - a / c * rdot cs x).
      { intros e a l x E L. unfold eliminate. rewrite E, Eq. cbn [fst hd tl]. apply dot_elim. lia. }
      destruct (IH (map (eliminate q) rest)) as (x & Ex & Lx & Hx).
      * intros e Hin. apply in_map_iff in Hin. destruct Hin as (f & <- & Hf). destruct (EL f Hf) as (a & l & E & L).
        unfold eliminate. rewrite E, Eq. cbn [fst hd tl]. rewrite GeomProofs.map2_len; lia.
      * rewrite map_length. unfold equation in *; lia.
      * intros x Lx Hx.
        assert (Z : (- (rdot cs x) / c) :: x = zeros (S m)).
        { apply Hk; [cbn; lia|]. intros e Hin. apply Q3 in Hin. destruct Hin as [-> | Hin].
          - rewrite Eq. cbn. field. auto.
          - destruct (EL e Hin) as (a & l & E & L). specialize (Hx (eliminate q e) (in_map _ _ _ Hin)).
            rewrite (EE e a l) in Hx by auto. rewrite E. cbn. rewrite <- Hx. field. auto. }
        unfold zeros in Z. cbn in Z. injection Z as _ Z. exact Z.
      * exists ((snd q - rdot cs x) / c :: x). rewrite Ex. cbn [tl hd]. split; auto. split; [cbn; lia|].
        intros e Hin. apply Q3 in Hin. unfold holds. destruct Hin as [-> | Hin].
        -- rewrite Eq. cbn. field. auto.
        -- destruct (EL e Hin) as (a & l & E & L). specialize (Hx (eliminate q e) (in_map _ _ _ Hin)). unfold holds in Hx.
           rewrite (EE e a l) in Hx by auto. unfold eliminate in Hx. rewrite E, Eq in Hx. cbn [snd hd] in Hx.
           rewrite E. cbn. replace (rdot l x) with (a / c * rdot cs x + (snd e - a / c * snd q)) by lra. field. auto.
    + exfalso. assert (Z : 1 :: zeros m = zeros (S m)).
      { apply Hk; [cbn; f_equal; apply zeros_length|]. intros e Hin. pose proof (pivot_none es P e Hin) as H0.
        pose proof (He e Hin) as L. destruct (fst e) as [|a l]; [discriminate|]. cbn in *. rewrite H0, rdot_zeros_r. ring. }
      unfold zeros in Z. cbn in Z. injection Z as Z. lra.
Qed.
Lemma gauss_complete : complete_solver gauss.
Proof.
  intros A b Lb Hr Hk. unfold gauss.
  assert (C : forall r, In r A -> exists v, In (r, v) (combine A b)).
  { intros r Hin. apply (In_nth _ _ []) in Hin. destruct Hin as (i & Hi & <-). exists (nth i b 0).
    rewrite <- combine_nth by auto. apply nth_In. rewrite combine_length. lia. }
  destruct (eliminations_ok (length A) (combine A b)) as (x & -> & Lx & Hx).
  - intros (r & v) Hin. apply in_combine_l in Hin. apply Hr. auto.
  - rewrite combine_length. lia.
  - intros x Lx Hx. apply Hk; auto. apply nth_ext with 0 0; [rewrite mat_vec_length, zeros_length; auto|].
    rewrite mat_vec_length. intros i Hi. rewrite nth_mat_vec, nth_zeros by auto.
    destruct (C (nth i A []) (nth_In _ _ Hi)) as (v & Hv). apply (Hx _ Hv).
  - destruct (Nat.eq_dec _ _); [|lia]. destruct (list_eq_dec _ _ _) as [|N]; [eauto|]. exfalso. apply N.
    apply nth_ext with 0 0; [rewrite mat_vec_length; lia|]. rewrite mat_vec_length. intros i Hi. rewrite nth_mat_vec by auto.
    apply (Hx (nth i A [], nth i b 0)). rewrite <- combine_nth by auto. apply nth_In. rewrite combine_length. lia.
Qed.
