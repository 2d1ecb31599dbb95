(** * Properties of the command line (C84) *)
From Verif Require Import SettingsProofs SettingsGlue CLIProofs.
From Coq Require Import Lia.
Open Scope string_scope.
Open Scope Q_scope.

(** C84, options.  The options offered on the command line are exactly the parameters of the
    settings class; the interface-only names are none of them. *)
Theorem C84_options_are_parameters : forall k,
  (In k (map fst registered) <-> parameter k) /\ (In k interface_keys -> ~ parameter k).
Proof. intros k. split; [symmetry; apply parameter_iff|apply interface_not_parameter]. Qed.
Print Assumptions C84_options_are_parameters.

(** A command line is rejected exactly when some option is not a parameter or some text cannot
    be converted to the type of its parameter. *)
Theorem C84_rejected_iff : forall conv os,
  parse conv (initial_options defaults) os = None <->
  exists k t, In (k, t) os /\ (~ parameter k \/ exists kd, In (k, kd) registered /\ conv kd t = None).
Proof. intros. apply parse_none. Qed.
Print Assumptions C84_rejected_iff.

(** C84, settings.  For every accepted command line, all interface options and all files: a
    successful call without --load creates the optimizer with settings in which every parameter
    has the value requested on the command line (last occurrence, or the documented default) and
    which contain nothing else; pause, printing, state and log file are as given. *)
Theorem C84_settings_reach_optimizer : forall conv os opts fs is_bb dim bbf load log points save pause print p,
  parse conv (initial_options defaults) os = Some opts ->
  cl_interface fs is_bb dim (assemble opts bbf load log points save pause print) = COk p ->
  is_bb = true /\ pl_pause p = pause /\ (pl_print p = true <-> asks_to_print print) /\ pl_dump p = save /\ pl_log p = log /\
  (forall f, load = Some f -> pl_source p = Loaded f) /\
  (load = None -> exists settings pos vals, pl_source p = Fresh settings pos vals /\
     (forall k v, parameter k -> (lookup k settings = Some v <-> requested conv os k v)) /\
     (forall k v, lookup k settings = Some v -> parameter k)).
Proof.
  intros conv os opts fs is_bb dim bbf load log points save pause print p HP HC.
  destruct (parse_spec _ _ _ _ (keys_initial defaults) HP) as (K & _).
  rewrite (cl_equation opts bbf load log points save pause print K) in HC.
  destruct is_bb; [|discriminate]. cbn [negb] in HC. split; [reflexivity|].
  destruct (from_dictionary opts) as [st|er] eqn:FD; [|discriminate].
  destruct (opened log fs); [|discriminate]. cbn [negb] in HC. cbv zeta in HC.
  assert (V : (forall k v, parameter k -> (lookup k st = Some v <-> requested conv os k v)) /\
              (forall k v, lookup k st = Some v -> parameter k)).
  { destruct (proj2 (from_dictionary_valid opts) st FD) as (V1 & V2). split; [|exact V2]. intros k v PK.
    rewrite (V1 k v PK). rewrite <- (parse_requested conv os opts k v HP PK). unfold effective.
    split; [|auto]. intros [H|[H _]]; [exact H|exfalso].
    apply (proj1 (parameter_iff k)) in PK. rewrite <- K in PK. apply lookup_keys in PK. destruct PK as [w E]. congruence. }
  assert (F : forall src, COk (mkPlan src pause (truth (AVal print)) save log) = COk p ->
     pl_pause p = pause /\ (pl_print p = true <-> asks_to_print print) /\ pl_dump p = save /\ pl_log p = log /\ pl_source p = src).
  { intros src E. injection E as <-. pose proof (truth_iff print). repeat split; intros; now apply H. }
  destruct load as [lf|].
  - destruct (F _ HC) as (E1 & E2 & E3 & E4 & E5). repeat (split; [assumption|]). split; [|discriminate]. intros f [= <-]. exact E5.
  - assert (S : exists pos vals, COk (mkPlan (Fresh st pos vals) pause (truth (AVal print)) save log) = COk p).
    { destruct points as [pf|]; [|eauto]. destruct (rows_of fs pf) as [rows|]; [|discriminate].
      destruct (read_points dim rows) as [[pos vals]|]; [|discriminate]. eauto. }
    destruct S as (pos & vals & E). destruct (F _ E) as (E1 & E2 & E3 & E4 & E5). repeat (split; [assumption|]). split; [discriminate|].
    intros _. exists st, pos, vals. auto.
Qed.
Print Assumptions C84_settings_reach_optimizer.

(** C84, points file.  The file's points are handed over, and starting values with them exactly
    when the rows have one column more than the dimension: then the values are the last column. *)
Theorem C84_points_file : forall conv os opts fs dim bbf log pf rows save pause print p,
  parse conv (initial_options defaults) os = Some opts -> rows_of fs pf = Some rows ->
  cl_interface fs true dim (assemble opts bbf None log (Some pf) save pause print) = COk p ->
  exists settings pos vals, pl_source p = Fresh settings (Some pos) vals /\ rows <> [] /\
    (vals <> None <-> rows_with_values dim rows) /\
    (rows_with_values dim rows -> exists vs, vals = Some vs /\ List.length pos = List.length vs /\
       rows = map2 (fun x v => (x ++ [v])%list) pos vs /\ Forall (fun x => List.length x = dim) pos) /\
    (~ rows_with_values dim rows -> pos = rows).
Proof.
  intros conv os opts fs dim bbf log pf rows save pause print p HP HR HC.
  destruct (parse_spec _ _ _ _ (keys_initial defaults) HP) as (K & _).
  rewrite (cl_equation opts bbf None log (Some pf) save pause print K) in HC. cbn [negb] in HC.
  destruct (from_dictionary opts) as [st|er]; [|discriminate]. destruct (opened log fs); [|discriminate]. cbn [negb] in HC. cbv zeta in HC.
  rewrite HR in HC. destruct (read_points dim rows) as [[pos vals]|] eqn:RP; [|discriminate]. injection HC as <-.
  exists st, pos, vals. split; [reflexivity|]. destruct (read_points_spec _ _ _ _ RP) as (NE & [(W & -> & ->)|((w & Hw & W) & -> & ->)]).
  - split; [exact NE|]. split; [split; [auto|discriminate]|]. split; [|tauto]. intros _. exists (map (fun r => last r 0) rows).
    split; [reflexivity|]. rewrite !map_length. split; [reflexivity|]. clear - W. induction W as [|r rs Hr W IH]; [split; [reflexivity|constructor]|].
    destruct IH as (IH1 & IH2). cbn [map map2]. split.
    + rewrite <- IH1. f_equal. apply app_removelast_last. destruct r; [cbn in Hr; lia|discriminate].
    + constructor; [|exact IH2]. rewrite removelast_length. lia.
  - split; [exact NE|]. assert (NW : ~ rows_with_values dim rows).
    { intros X. destruct rows as [|r rs]; [congruence|]. unfold rows_with_values in X. inversion X; inversion W; subst. congruence. }
    split; [split; [congruence|tauto]|]. split; [tauto|reflexivity].
Qed.
Print Assumptions C84_points_file.

(** C84, no loss.  Every valid command line leads to an optimizer: parameters valid in the sense of
    C37, a log file that can be opened, and points of one width. *)
Theorem C84_valid_command_line_succeeds : forall conv os opts fs dim bbf load log points save pause print,
  parse conv (initial_options defaults) os = Some opts -> valid_args opts ->
  (forall f, log = Some f -> can_open fs f = true) ->
  (forall f, points = Some f -> exists rows, rows_of fs f = Some rows /\ rows <> [] /\
     (rows_with_values dim rows \/ rows_without_values dim rows)) ->
  exists p, cl_interface fs true dim (assemble opts bbf load log points save pause print) = COk p.
Proof.
  intros conv os opts fs dim bbf load log points save pause print HP V HL HPt.
  destruct (parse_spec _ _ _ _ (keys_initial defaults) HP) as (K & _).
  rewrite (cl_equation opts bbf load log points save pause print K). cbn [negb].
  destruct (proj2 (proj1 (from_dictionary_valid opts)) V) as [st ->].
  assert (O : opened log fs = true) by (unfold opened; destruct log; auto). rewrite O. cbn [negb]. cbv zeta.
  destruct load as [lf|]; [eauto|]. destruct points as [pf|]; [|eauto].
  destruct (HPt pf eq_refl) as (rows & -> & NE & [W|W]).
  - rewrite (read_points_values _ _ NE W). eauto.
  - rewrite (read_points_plain dim dim rows NE); [eauto|lia|exact W].
Qed.
Print Assumptions C84_valid_command_line_succeeds.

(** Invalid values are reported, never passed on. *)
Theorem C84_invalid_settings_raise : forall conv os opts fs dim bbf load log points save pause print p,
  parse conv (initial_options defaults) os = Some opts ->
  cl_interface fs true dim (assemble opts bbf load log points save pause print) = COk p -> valid_args opts.
Proof.
  intros conv os opts fs dim bbf load log points save pause print p HP HC.
  destruct (parse_spec _ _ _ _ (keys_initial defaults) HP) as (K & _).
  rewrite (cl_equation opts bbf load log points save pause print K) in HC. cbn [negb] in HC.
  destruct (from_dictionary opts) as [st|er] eqn:FD; [|discriminate]. apply (from_dictionary_valid opts). eauto.
Qed.
Print Assumptions C84_invalid_settings_raise.

(** The case: three options, one of them twice, a points file with values. *)
Definition c84_conv : converter := fun k t =>
  match k with
  | KStr => Some (PStr t)
  | KBool => if String.eqb t "True" then Some (PBool true) else if String.eqb t "False" then Some (PBool false) else None
  | _ => if String.eqb t "7" then Some (PNum 7) else if String.eqb t "9" then Some (PNum 9) else None
  end.
Definition c84_line : given_options := [("max_evaluations", "7"); ("rbf", "cubic"); ("max_evaluations", "9")].
Definition c84_files : files := mkFiles (fun f => String.eqb f "log") (fun f => if String.eqb f "pts" then Some [[1;2;3];[4;5;6]] else None).
Example C84_case :
  match parse c84_conv (initial_options defaults) c84_line with
  | None => False
  | Some opts =>
      match cl_interface c84_files true 2 (assemble opts "bb.py" None (Some "log") (Some "pts") None 1000 (PBool true)) with
      | COk p => exists st, pl_source p = Fresh st (Some [[1;2];[4;5]]) (Some [3;6]) /\
          lookup "max_evaluations" st = Some (PNum 9) /\ lookup "rbf" st = Some (PStr "cubic") /\
          lookup "eps_opt" st = Some (PNum (1#100))
      | _ => False
      end
  end.
Proof.
  vm_compute. eexists. repeat split; reflexivity.
Qed.
Example C84_rejected_case : parse c84_conv (initial_options defaults) [("max_evalations", "7")] = None /\
  parse c84_conv (initial_options defaults) [("debug", "yes")] = None.
Proof. split; vm_compute; reflexivity. Qed.

(** Where the claim fails.  With --load the settings given on the command line (valid or not needed)
    have no effect at all: any two accepted command lines give the same optimizer. *)
Theorem C84_load_ignores_settings : forall conv os os' opts opts' fs dim bbf bbf' f log points points' save pause print p p',
  parse conv (initial_options defaults) os = Some opts -> parse conv (initial_options defaults) os' = Some opts' ->
  cl_interface fs true dim (assemble opts bbf (Some f) log points save pause print) = COk p ->
  cl_interface fs true dim (assemble opts' bbf' (Some f) log points' save pause print) = COk p' ->
  p = p'.
Proof.
  intros conv os os' opts opts' fs dim bbf bbf' f log points points' save pause print p p' HP HP' H H'.
  destruct (parse_spec _ _ _ _ (keys_initial defaults) HP) as (K & _). destruct (parse_spec _ _ _ _ (keys_initial defaults) HP') as (K' & _).
  rewrite (cl_equation opts bbf (Some f) log points save pause print K) in H. rewrite (cl_equation opts' bbf' (Some f) log points' save pause print K') in H'.
  cbn [negb] in *. destruct (from_dictionary opts); [|discriminate]. destruct (from_dictionary opts'); [|discriminate].
  destruct (opened log fs); [|discriminate]. cbn [negb] in *. cbv zeta in *. congruence.
Qed.
Print Assumptions C84_load_ignores_settings.
Example C84_load_case :
  match parse c84_conv (initial_options defaults) c84_line, parse c84_conv (initial_options defaults) [] with
  | Some a, Some b => a <> b /\
      exists p, cl_interface c84_files true 2 (assemble a "bb.py" (Some "s") None None None 10 (PBool true)) = COk p /\
                cl_interface c84_files true 2 (assemble b "bb.py" (Some "s") None None None 10 (PBool true)) = COk p
  | _, _ => False
  end.
Proof.
  vm_compute. split; [discriminate|]. eexists. split; reflexivity.
Qed.
(** A points file whose rows have neither [dim] nor [dim+1] columns is not reported here: all rows are
    passed on as points. *)
Theorem C84_wrong_width_passed_on : forall dim w rows, rows <> [] -> w <> (dim + 1)%nat ->
  Forall (fun r => List.length r = w) rows -> read_points dim rows = COk (rows, None).
Proof. exact read_points_plain. Qed.
Print Assumptions C84_wrong_width_passed_on.
Example C84_wrong_width_case : read_points 3 [[1];[2]] = COk ([[1];[2]], None).
Proof. reflexivity. Qed.
(** A log file that cannot be opened is reported on stderr, but the call still fails with an unrelated
    exception (the stream variable was never assigned). *)
Theorem C84_bad_log_file_fails : forall conv os opts fs dim bbf load f points save pause print,
  parse conv (initial_options defaults) os = Some opts -> can_open fs f = false -> valid_args opts ->
  cl_interface fs true dim (assemble opts bbf load (Some f) points save pause print) = CFail CUnbound.
Proof.
  intros conv os opts fs dim bbf load f points save pause print HP HO V.
  destruct (parse_spec _ _ _ _ (keys_initial defaults) HP) as (K & _).
  rewrite (cl_equation opts bbf load (Some f) points save pause print K). cbn [negb].
  destruct (proj2 (proj1 (from_dictionary_valid opts)) V) as [st ->]. unfold opened. now rewrite HO.
Qed.
Print Assumptions C84_bad_log_file_fails.
