(** * C36, exactly. *)
From Verif Require Import WitnessAlg.
From Verif Require Import FollowProofs.
From Coq Require Import Lia Lqa.
Open Scope Z_scope.

(** ** C36 *)
(** A noisy evaluation made by an iteration is followed at once by an accurate evaluation of the same point exactly when its
    lowest possible value v + el (el <= 0 is the lower error bound) improves on the best value by the relative threshold, or
    is within the optimality tolerance of the target. *)
Theorem C36_followed : forall c i s l s' l' new p v el eu, pass c i s l = Cont s' l' ->
  restarts_in (trace s') = restarts_in (trace s) -> trace s' = trace s ++ new -> In (EvNoisy p v el eu) new ->
  ((exists w, In (EvAcc p w) new) <->
   (exists b, fmin (I s) = Some b /\ (v + el <= b - eps_impr c * Qmax 1 (Qabs b))%Q) \/
   (v + el <= target_objval c + eps_opt c * Qabs (target_objval c))%Q).
Proof. exact followed. Qed.
Print Assumptions C36_followed.
Definition s_n1 := at_state (wcfg k_res) (call0 k_res dflt_inp (firstn 1 is_stale)).
Definition l_n1 := at_loc (call0 k_res dflt_inp (firstn 1 is_stale)).
Definition low := prop [6%Q] 2%Q ((-20)%Q, (-1)%Q, 1%Q).
Definition high := prop [6%Q] 2%Q (20%Q, (-1)%Q, 1%Q).
Example C36_followed_case : exists s' l' s'' l'' n' n'', reach (wcfg k_res) any_inp s_n1 l_n1 /\
  pass (wcfg k_res) low s_n1 l_n1 = Cont s' l' /\ restarts_in (trace s') = restarts_in (trace s_n1) /\
  trace s' = trace s_n1 ++ n' /\ In (EvNoisy [6%Q] (-20) (-1) 1) n' /\ In (EvAcc [6%Q] 2%Q) n' /\
  pass (wcfg k_res) high s_n1 l_n1 = Cont s'' l'' /\ restarts_in (trace s'') = restarts_in (trace s_n1) /\
  trace s'' = trace s_n1 ++ n'' /\ In (EvNoisy [6%Q] 20 (-1) 1) n'' /\ forall w, ~ In (EvAcc [6%Q] w) n''.
Proof.
  do 4 eexists. exists [EvStep 2; EvNoisy [6%Q] (-20) (-1) 1; EvAcc [6%Q] 2%Q; EvSave 2], [EvStep 2; EvNoisy [6%Q] 20 (-1) 1; EvSave 2].
  split; [apply running_reach; vm_compute; reflexivity|]. split; [vm_compute; reflexivity|].
  split; [vm_compute; reflexivity|]. split; [vm_compute; reflexivity|]. split; [cbn; auto|]. split; [cbn; auto|].
  split; [vm_compute; reflexivity|]. split; [vm_compute; reflexivity|]. split; [vm_compute; reflexivity|]. split; [cbn; auto|].
  intros w [H|[H|[H|[]]]]; discriminate H.
Qed.
