(** C128: the command as a whole, from its words to the files. *)
From Coq Require Import ZArith.
From Verif Require Import Base M_Args S_Args P_Args M_Shell.
From Verif Require Import M_Command S_Command P_Command.
Open Scope string_scope.
Open Scope list_scope.

(** A command line that is refused, and one that asks for help, touches no file. *)
Theorem C128_a_refused_command_touches_nothing :
  forall (B V P L : Type) integer resolve meaning listing further efficiency observing info ws l (s : fs B V P),
    spelled ws l -> last_said Payload l = None \/ last_said Targets l = None \/ ~ integers integer l ->
    command (L := L) integer resolve meaning listing further efficiency observing info ws s = (s, 2).
Proof.
  intros B V P L integer resolve meaning listing further efficiency observing info ws l s SP H. destruct (C127_refused integer ws l SP H) as [n E].
  pose proof (C127_status_of_refusals integer ws l n SP E) as ->. unfold command. now rewrite E.
Qed.
Print Assumptions C128_a_refused_command_touches_nothing.
Theorem C128_help_touches_nothing :
  forall (B V P L : Type) integer resolve meaning listing further efficiency observing info ws l w ws' l' (s : fs B V P),
    spelled ws l -> integers integer l -> names w Help -> spelled ws' l' ->
    command (L := L) integer resolve meaning listing further efficiency observing info (ws ++ w :: ws') s = (s, 0).
Proof.
  intros B V P L integer resolve meaning listing further efficiency observing info ws l w ws' l' s SP I N SP'. unfold command. now rewrite (C127_help integer ws l w ws' l' SP I N SP').
Qed.
Print Assumptions C128_help_touches_nothing.

(** Without -o no file changes. *)
Theorem C128_no_output_no_file :
  forall (B V P L : Type) integer resolve meaning listing further efficiency observing info ws l (s s' : fs B V P) n,
    spelled ws l -> last_said Output l = None ->
    command (L := L) integer resolve meaning listing further efficiency observing info ws s = (s', n) -> forall p, s' p = s p.
Proof.
  intros B V P L integer resolve meaning listing further efficiency observing info ws l s s' n SP NO. unfold command. destruct (M_Args.main integer ws) as [c|m] eqn:M; [|intros [= <- _]; auto].
  assert (O : c_output c = None).
  { destruct (C127_nothing_passed_over integer ws c M) as (l0 & _ & _). destruct (last_said Payload l) eqn:LP; [destruct (last_said Targets l) eqn:LT|].
    - unfold M_Args.main in M. rewrite (spelled_parsed _ _ _ SP) in M. destruct (do_all integer l defaults) as [st|] eqn:D; [|discriminate]. pose proof (done_said integer l _ _ D) as (E1 & E2 & E3 & _). cbn in E1, E2, E3. unfold finish in M. rewrite E1, E2, LP, LT in M. rewrite E1, E2, LP, LT in M. injection M as <-. cbn. rewrite E3. now rewrite NO.
    - exfalso. destruct (C127_refused integer ws l SP (or_intror (or_introl LT))) as [k K]. congruence.
    - exfalso. destruct (C127_refused integer ws l SP (or_introl LP)) as [k K]. congruence. }
  rewrite O. cbn [option_map]. destruct (run _ _ _ _ _ _ _ _ _ _ _ s) as [s1 r] eqn:RU. intros [= <- _]. eapply C111_no_output_no_file; exact RU.
Qed.
Print Assumptions C128_no_output_no_file.

(** What is asked for is what is run: the files the words name, and a status of 0 if and only if the run
    ends well. *)
Theorem C128_runs_what_is_asked :
  forall (B V P L : Type) integer resolve meaning listing further efficiency observing info ws l p t (s : fs B V P),
    spelled ws l -> integers integer l -> last_said Payload l = Some p -> last_said Targets l = Some t ->
    exists n debug contrib plot s' r,
      (match last_said Threads l with Some v => integer v = Some n | None => n = 1%Z end) /\
      (debug = true <-> In (Flag Debug) l) /\ (contrib = true <-> In (Flag Contrib) l) /\ (plot = true <-> In (Flag Plot) l) /\
      run meaning listing (further contrib) efficiency (observing n debug) (Path (resolve p)) (Path (resolve t)) (option_map resolve (last_said Output l)) plot true info s = (s', r) /\
      command (L := L) integer resolve meaning listing further efficiency observing info ws s = (s', match r with Ok _ => 0 | Err _ => 1 end).
Proof.
  intros B V P L integer resolve meaning listing further efficiency observing info ws l p t s SP I LP LT.
  destruct (C127_as_asked integer ws l SP I) as (c & M & [A1 A2 A3 A4 A5 A6 A7 A8 A9]); [congruence|congruence|].
  assert (c_options c = p) by congruence. assert (c_target_list c = t) by congruence. subst p t.
  destruct (run meaning listing (further (c_full_contrib c)) efficiency (observing (c_n_thread c) (c_debug c)) (Path (resolve (c_options c))) (Path (resolve (c_target_list c))) (option_map resolve (c_output c)) (c_plot c) true info s) as [s' r] eqn:RU.
  exists (c_n_thread c), (c_debug c), (c_full_contrib c), (c_plot c), s', r. split; [exact A4|]. split; [exact A6|]. split; [exact A5|]. split; [exact A8|]. split; [now rewrite A3|].
  unfold command. rewrite M, A9, RU. reflexivity.
Qed.
Print Assumptions C128_runs_what_is_asked.

(** With -o only the directory of the output changes: the output itself, copies of the two inputs, and, if
    asked for, images; besides, missing directories are made. *)
Theorem C128_stays_in_its_directory :
  forall (B V P L : Type) integer resolve meaning listing further efficiency observing info ws l p t o d x (s s' : fs B V P) n,
    spelled ws l -> integers integer l -> last_said Payload l = Some p -> last_said Targets l = Some t -> last_said Output l = Some o ->
    sound_fs s -> resolve o = d ++ [x] -> (forall c, s d <> Some (File c)) ->
    command (L := L) integer resolve meaning listing further efficiency observing info ws s = (s', n) ->
    forall q, ~ (exists y, q = d ++ [y] /\ (y = x \/ y = basename (resolve p) \/ y = basename (resolve t) \/ (In (Flag Plot) l /\ image_name y))) ->
      s' q = s q \/ (s q = None /\ s' q = Some Folder /\ around q d).
Proof.
  intros B V P L integer resolve meaning listing further efficiency observing info ws l p t o d x s s' n SP I LP LT LO SF RO ND CM q NQ.
  destruct (C128_runs_what_is_asked B V P L integer resolve meaning listing further efficiency observing info ws l p t s SP I LP LT) as (k & debug & contrib & plot & s1 & r & _ & _ & _ & PL & RU & CM').
  rewrite CM' in CM. injection CM as <- <-. rewrite LO in RU. cbn [option_map] in RU. rewrite RO in RU.
  eapply C111_a_run_stays_in_its_directory; [exact SF|exact ND|exact RU|]. intros F. apply NQ. clear -F PL.
  destruct F as [->|[(z & y & OT & ->)|(PT & y & IM & ->)]]; [exists x; auto| |exists y; split; [reflexivity|]; right; right; right; split; [now apply PL|exact IM]].
  exists y. split; [reflexivity|]. unfold basename. destruct OT as [E|E]; injection E as ->; rewrite last_last; auto.
Qed.
Print Assumptions C128_stays_in_its_directory.

(** Refuted: that a command which fails leaves the former results alone.  With a payload that is not there
    the old output is gone, and nothing else has changed. *)
Theorem C128_failure_is_harmless_refuted :
  forall (B V P L : Type) integer resolve meaning listing further efficiency observing info ws l p t o d x (s : fs B V P) k,
    spelled ws l -> integers integer l -> last_said Payload l = Some p -> last_said Targets l = Some t -> last_said Output l = Some o ->
    sound_fs s -> resolve o = d ++ [x] -> s (d ++ [x]) = Some (File k) -> s (resolve p) = None ->
    exists s', command (L := L) integer resolve meaning listing further efficiency observing info ws s = (s', 1) /\
      s' (d ++ [x]) = None /\ forall q, q <> d ++ [x] -> s' q = s q.
Proof.
  intros B V P L integer resolve meaning listing further efficiency observing info ws l p t o d x s k SP I LP LT LO SF RO SO NP.
  destruct (C128_runs_what_is_asked B V P L integer resolve meaning listing further efficiency observing info ws l p t s SP I LP LT) as (n & debug & contrib & plot & s' & r & _ & _ & _ & _ & RU & ->).
  rewrite LO in RU. cbn [option_map] in RU. rewrite RO in RU. destruct (C113_a_failed_run_destroys_former_results _ _ _ _ _ _ _ _ _ _ _ _ _ _ _ _ _ _ _ SF SO NP RU) as (-> & G & H).
  exists s'. auto.
Qed.
Print Assumptions C128_failure_is_harmless_refuted.

(** ** Example: the command of P_Args in a directory with an old output and without the payload *)
Definition home (n : string) : path := ["home"; n].
Definition old_results : fs unit unit unit := fun q =>
  if path_eqb q [] then Some Folder else if path_eqb q ["home"] then Some Folder else if path_eqb q ["home"; "out.h5"] then Some (File (Archive [])) else None.
Example C128_ex : exists s', command (L := unit) two home (fun _ _ => Err OSError) (fun _ _ => Err OSError) (fun _ => Ok) (fun _ => Ok tt) (fun _ _ _ _ _ _ => Err OSError) []
    ["-p"; "ariel.xml"; "--tar"; "targets.csv"; "--output=out.h5"; "-n2"; "--plot"; "-d"] old_results = (s', 1) /\
  s' ["home"; "out.h5"] = None /\ forall q, q <> ["home"; "out.h5"] -> s' q = old_results q.
Proof.
  eapply (C128_failure_is_harmless_refuted unit unit unit unit two home _ _ _ _ _ _ _ _ "ariel.xml" "targets.csv" "out.h5" ["home"] "out.h5"); [exact C127_ex|..]; try reflexivity.
  - intros v H. cbn in H. assert (v = "2") as -> by intuition congruence. discriminate.
  - split; [reflexivity|]. intros q n. unfold old_results. destruct q as [|a [|b q]].
    + intros _. reflexivity.
    + cbn. destruct (String.eqb_spec a "home") as [->|]; [reflexivity|]. cbn. intros H. now destruct H.
    + cbn. destruct (String.eqb a "home"), (String.eqb b "out.h5"); destruct q; cbn; congruence.
Qed.
