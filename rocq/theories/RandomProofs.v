(** * Random number generators: proofs. *)
From Verif Require Export ModelRandom.

Lemma exec_prefix {B} sq (p : prog B) : forall g b xs g', exec sq p g = (b, xs, g') ->
  xs = map (sq (g_seed g)) (seq (g_at g) (length xs)) /\ g' = mkGen (g_seed g) (g_at g + length xs).
Proof.
  induction p as [b0|next IH]; intros g b xs g' H; cbn in H.
  - injection H as <- <- <-. cbn. rewrite Nat.add_0_r. destruct g; auto.
  - destruct (exec sq (next _) _) as [[b1 xs1] g1] eqn:E. injection H as <- <- <-.
    apply IH in E. cbn [g_seed g_at] in E. destruct E as (E1 & E2). cbn [length seq map].
    split; [f_equal; exact E1|]. rewrite E2. f_equal. lia.
Qed.

(** The numbers used by worker [i]. *)
Fixpoint used {B} (i : nat) (l : list (nat * B * list Z)) : list Z :=
  match l with
  | [] => []
  | (j, _, xs) :: r => if Nat.eqb i j then xs ++ used i r else used i r
  end.
Lemma nth_set {A} i j (a : A) : forall l, nth_error (set_nth i a l) j =
  if Nat.eqb i j then match nth_error l i with Some _ => Some a | None => None end else nth_error l j.
Proof.
  revert j. induction i as [|i IH]; intros j l; destruct l as [|x r]; destruct j as [|j]; cbn; auto.
  - destruct (Nat.eqb i j); reflexivity.
Qed.

Lemma works_used {B} sq (ts : list (nat * prog B)) : forall ws out i g, works sq ts ws = Some out -> nth_error ws i = Some g ->
  used i out = map (sq (g_seed g)) (seq (g_at g) (length (used i out))).
Proof.
  induction ts as [|[j p] r IH]; intros ws out i g H Hi; cbn in H.
  - injection H as <-. reflexivity.
  - unfold work in H. destruct (nth_error ws j) as [gj|] eqn:Ej; [|discriminate].
    destruct (exec sq p gj) as [[b xs] g'] eqn:E. destruct (works sq r _) as [o|] eqn:Er; [|discriminate].
    injection H as <-. cbn [used]. apply exec_prefix in E. destruct E as (E1 & E2).
    destruct (Nat.eqb i j) eqn:Eij.
    + apply Nat.eqb_eq in Eij. subst j. rewrite Hi in Ej. injection Ej as <-.
      assert (N : nth_error (set_nth i g' ws) i = Some g') by (rewrite nth_set, Nat.eqb_refl, Hi; reflexivity).
      pose proof (IH _ _ _ _ Er N) as X. rewrite E2 in X. cbn [g_seed g_at] in X.
      rewrite app_length, seq_app, map_app. f_equal; [exact E1|exact X].
    + assert (N : nth_error (set_nth j g' ws) i = Some g) by (rewrite nth_set, Nat.eqb_sym, Eij; exact Hi).
      exact (IH _ _ _ _ Er N).
Qed.

Lemma open_nth s n i : i < n -> nth_error (open_pool s n) i = Some (seed s).
Proof. intros H. unfold open_pool. apply nth_error_repeat. exact H. Qed.

(** Tasks and results of one worker. *)
Fixpoint tasks_of {B} (i : nat) (ts : list (nat * prog B)) : list (prog B) :=
  match ts with [] => [] | (j, p) :: r => if Nat.eqb i j then p :: tasks_of i r else tasks_of i r end.
Fixpoint results_of {B} (i : nat) (l : list (nat * B * list Z)) : list B :=
  match l with [] => [] | (j, b, _) :: r => if Nat.eqb i j then b :: results_of i r else results_of i r end.
(** A worker alone. *)
Fixpoint alone {B} (sq : sequences) (ps : list (prog B)) (g : generator) : list B :=
  match ps with [] => [] | p :: r => let '(b, _, g') := exec sq p g in b :: alone sq r g' end.
Lemma works_alone {B} sq (ts : list (nat * prog B)) : forall ws out i g, works sq ts ws = Some out -> nth_error ws i = Some g ->
  results_of i out = alone sq (tasks_of i ts) g.
Proof.
  induction ts as [|[j p] r IH]; intros ws out i g H Hi; cbn in H.
  - injection H as <-. reflexivity.
  - unfold work in H. destruct (nth_error ws j) as [gj|] eqn:Ej; [|discriminate].
    destruct (exec sq p gj) as [[b xs] g'] eqn:E. destruct (works sq r _) as [o|] eqn:Er; [|discriminate].
    injection H as <-. cbn [results_of tasks_of]. destruct (Nat.eqb i j) eqn:Eij.
    + apply Nat.eqb_eq in Eij. subst j. rewrite Hi in Ej. injection Ej as <-. cbn [alone]. rewrite E.
      f_equal. apply (IH _ _ _ _ Er). rewrite nth_set, Nat.eqb_refl, Hi. reflexivity.
    + apply (IH _ _ _ _ Er). rewrite nth_set, Nat.eqb_sym, Eij. exact Hi.
Qed.
