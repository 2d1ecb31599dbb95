(** * Concrete configurations and inputs, used by the examples and refutations. *)
From Verif Require Export AlgExact.
Open Scope Z_scope.

(** One-dimensional problem on [0,10] with some adjustable settings. *)
Record knobs := mkKnobs {
  k_aff : bool; k_noisy : bool; k_ints : list nat; k_lo : point; k_up : point;
  k_maxit : Z; k_maxev : Z; k_eps0 : Q; k_mind : Q; k_target : Q;
  k_user : list point; k_uval : list Q; k_save : Z; k_dw : Z; k_g : Z; k_inf : bool; k_loc : bool;
  k_nev : Z; k_nre : Z; k_stall : Z; k_init : bool }.
Definition wcfg (k : knobs) : cfg :=
  mkCfg (length (k_lo k)) (k_lo k) (k_up k) (k_ints k) (k_aff k)
        (k_maxit k) (k_maxev k) 50 None (k_nev k) (k_nre k) 50
        (1#100) (k_eps0 k) (1#10000) (k_mind k) (k_target k)
        (k_inf k) (k_loc k) (k_g k) (k_dw k) 1 (1#2) (k_stall k)
        3 5 (9#10) (9#10) (1#1000) (1#4) (3#4) (1#10) 5 (1#2) (k_save k)
        (k_noisy k) (k_user k) (k_uval k) (k_init k).
Definition kn0 : knobs :=
  mkKnobs false false [] [0%Q] [10%Q] 30 40 (1#1000000) (1#1000) (-100) [] [] 2 20 2 false true 10 2 100 true.

Definition dflt_inp : inp :=
  mkInp true (Some [[0%Q]; [10%Q]]) (fun j => inject_Z (5 + Z.of_nat j))
        (fun j => (inject_Z (5 + Z.of_nat j), -(1#2), 1#2)%Q) (fun j => inject_Z (20 + Z.of_nat j))
        true true [0%nat; 1%nat] 1%Q None None (fun _ => None) 1%Q 1%Q 0%nat false false 3%Q (4, -(1#4), 1#4)%Q.
(** A proposal and the answers of the two evaluation methods. *)
Definition prop (p : point) (v : Q) (nv : Q * Q * Q) : inp :=
  mkInp true (Some [[0%Q]; [10%Q]]) (i_rs_acc dflt_inp) (i_rs_noisy dflt_inp) (i_rs_user dflt_inp)
        true true [0%nat; 1%nat] 1%Q (Some p) None (fun _ => None) 1%Q 1%Q 0%nat false false v nv.
Definition with_samples (ps : option (list point)) (acc : nat -> Q) (i : inp) : inp :=
  mkInp (i_clock_ok i) ps acc (i_rs_noisy i) (i_rs_user i) (i_lin_ok i) (i_ref_ok i) (i_ref_set i)
        (i_ref_radius i) (i_prop i) (i_reeval i) (i_restore i) (i_model_impr i) (i_real_impr i)
        (i_to_replace i) (i_rank_def i) (i_time_unl i) (i_val i) (i_nval i).
Definition with_reeval (j : nat) (i : inp) : inp :=
  mkInp (i_clock_ok i) (i_samples i) (i_rs_acc i) (i_rs_noisy i) (i_rs_user i) (i_lin_ok i) (i_ref_ok i)
        (i_ref_set i) (i_ref_radius i) (i_prop i) (Some j) (i_restore i) (i_model_impr i) (i_real_impr i)
        (i_to_replace i) (i_rank_def i) (i_time_unl i) (i_val i) (i_nval i).
Definition with_lin (b : bool) (i : inp) : inp :=
  mkInp (i_clock_ok i) (i_samples i) (i_rs_acc i) (i_rs_noisy i) (i_rs_user i) b (i_ref_ok i)
        (i_ref_set i) (i_ref_radius i) (i_prop i) (i_reeval i) (i_restore i) (i_model_impr i) (i_real_impr i)
        (i_to_replace i) (i_rank_def i) (i_time_unl i) (i_val i) (i_nval i).

(** From a computed run to reachability. *)
Lemma reach_run c (ok : inp -> Prop) : forall is s l s' l', reach c ok s l -> Forall ok is ->
  run c is s l = Running s' l' -> reach c ok s' l'.
Proof.
  induction is as [|i is IH]; intros s l s' l' HR HF H; cbn in H; [inversion H; subst; exact HR|].
  inversion HF; subst. destruct (pass c i s l) as [s1 l1| |e] eqn:E; try discriminate.
  eapply IH; [|eassumption|exact H]. eapply reach_pass; eauto.
Qed.
Definition states (r : run_result) : option st :=
  match r with Running s _ => Some s | Done s => Some s | Failed _ => None end.
Definition final_loc (r : run_result) : option loc :=
  match r with Running _ l => Some l | _ => None end.
(** Reachability of a computed state, for any admissible list of inputs. *)
Lemma reach_call c (ok : inp -> Prop) i0 pa is s l : ok i0 -> Forall ok is ->
  call c i0 pa is (init_st c) = Running s l -> reach c ok s l.
Proof.
  intros H0 HF H. unfold call in H. destruct (start_call c i0 pa (init_st c)) as [[s1 l1]|] eqn:E; [|discriminate].
  eapply reach_run; [eapply reach_start; eauto|exact HF|exact H].
Qed.
Lemma any_all is : Forall any_inp is.
Proof. apply Forall_forall. intros; exact Logic.I. Qed.

(** A complete call on the initial state. *)
Definition call0 (k : knobs) (i0 : inp) (is : list inp) : run_result :=
  call (wcfg k) i0 1000 is (init_st (wcfg k)).
