(** Property theorems about the task framework (C01-C03).  [exec] is the body of an
    arbitrary task class, [decls] its addTaskParam calls, [h] any history of earlier calls
    (succeeding or failing) on the same instance.  [call] returns the new instance, what the
    body observed and set (None if it did not run), and the returned value or exception. *)
From Verif Require Import Base M_Task L_Task.

(** C01 *)
Theorem C01_unknown_keyword_rejected :
  forall (V B : Type) (vnone : V) (exec : @body V B) decls b h kw k,
    decls <> [] ->
    In k (map fst kw) -> ~ In k (map fst decls) ->
    let t := fst (run_calls exec (declare vnone b decls) h) in
    call exec t kw = (t, None, Err ValueError).
Proof. intros; eapply task_unknown_keyword_lemma; eauto. Qed.
Print Assumptions C01_unknown_keyword_rejected.

(** C02: when all keywords are declared the body runs, and what it sees under every name is
    the keyword of this call, else the default of the last declaration of that name. *)
Theorem C02_body_sees_kwargs_over_defaults :
  forall (V B : Type) (vnone : V) (exec : @body V B) decls b h kw,
    decls <> [] -> (forall k, In k (map fst kw) -> In k (map fst decls)) ->
    let t := fst (run_calls exec (declare vnone b decls) h) in
    exists inp outs err,
      snd (fst (call exec t kw)) = Some (inp, outs) /\
      snd (fst (exec (t_state t) inp (t_output t))) = outs /\
      snd (exec (t_state t) inp (t_output t)) = err /\
      (snd (call exec t kw) = match err with Some e => Err e
                              | None => Ok (last outs (t_output t)) end) /\
      (forall k, sget k inp =
         match sget k kw with Some v => Some v | None => sget k (rev decls) end).
Proof. intros; apply task_known_keywords_run; auto. Qed.
Print Assumptions C02_body_sees_kwargs_over_defaults.

(** C03: a successful call returns the last product set on the instance, over the whole
    history including this call (None if there is none)... *)
Theorem C03_return_value_over_history :
  forall (V B : Type) (vnone : V) (exec : @body V B) decls b h kw v,
    let t := fst (run_calls exec (declare vnone b decls) h) in
    snd (call exec t kw) = Ok v ->
    v = last (products (snd (run_calls exec (declare vnone b decls) (h ++ [kw])))) vnone.
Proof. intros; eapply task_return_value_lemma; eauto. Qed.
Print Assumptions C03_return_value_over_history.

(** ... and a task with no declared parameter never runs. *)
Theorem C03_task_without_parameters_never_runs :
  forall (V B : Type) (vnone : V) (exec : @body V B) b h kw,
    let t := fst (run_calls exec (declare vnone b []) h) in
    call exec t kw = (t, None, Err AttributeError).
Proof. intros; apply task_no_params_lemma. Qed.
Print Assumptions C03_task_without_parameters_never_runs.

(** The stale-output behaviour is real: the naive reading "a call returns what that call
    produced" is false. *)
Definition silent_second : @body nat nat :=
  fun b _ _ => (S b, if Nat.eqb b 0 then [7] else [], None).
Theorem C03_fresh_output_refuted :
  exists (exec : @body nat nat) decls h kw v,
    let t := fst (run_calls exec (declare 0 0 decls) h) in
    snd (call exec t kw) = Ok v /\ v <> 0 /\
    exists inp, snd (fst (call exec t kw)) = Some (inp, []).
Proof.
  exists silent_second, [("x", 1)], [[]], [], 7. cbn. repeat split; try lia.
  exists [("x", 1)]; reflexivity.
Qed.
Print Assumptions C03_fresh_output_refuted.

(** The hypotheses are met by concrete instances. *)
Example C01_ex : let t := fst (run_calls silent_second (declare 0 0 [("target", 5)]) [[]]) in
  call silent_second t [("target", 1); ("tagret", 2)] = (t, None, Err ValueError).
Proof. reflexivity. Qed.
Example C02_ex :
  snd (fst (call silent_second (declare 0 0 [("a", 1); ("b", 2); ("a", 3)]) [("b", 9)]))
  = Some ([("b", 9); ("a", 3)], [7]).
Proof. reflexivity. Qed.
