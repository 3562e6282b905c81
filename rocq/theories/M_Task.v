(** Model of exorad/tasks/task.py (class Task).  Definitions only. *)
From Verif Require Import Base.

Section Task.
  (** [V]: Python values; [vnone]: [None].  [B]: whatever other state the concrete
      subclass keeps on the instance (e.g. LoadOptions.configPath). *)
  Context {V B : Type} (vnone : V).

  (** What running [execute] does: the instance state afterwards, the products handed to
      [set_output] in order, and the exception that ended it, if any.
      task.py:25-31 (abstract) - the body is arbitrary; it may read the inputs
      (get_task_param, task.py:58-59), the previous output and its own state. *)
  Definition body := B -> sdict V -> V -> B * list V * option exn.

  (** Attributes of a Task instance.  task.py:14-16 ([_output], [_task_input],
      [_task_params], all None at class level); [t_params] maps a declared parameter to its
      default (the description string is not modelled). *)
  Record task := {
    t_params : option (sdict V);
    t_output : V;
    t_state  : B
  }.

  Definition fresh_task (b : B) : task :=
    {| t_params := None; t_output := vnone; t_state := b |}.

  (** addTaskParam, task.py:61-67. *)
  Definition add_task_param (t : task) (name : string) (default : V) : task :=
    {| t_params := Some (sset name default
                           (match t_params t with None => [] | Some p => p end));
       t_output := t_output t; t_state := t_state t |}.

  (** _validate_input_params, task.py:41-45: the first unknown key raises ValueError;
      with [_task_params = None] the attribute access [.keys()] raises AttributeError,
      but only if there is a key to check. *)
  Fixpoint validate (params : option (sdict V)) (keys : list string) : res unit :=
    match keys with
    | [] => Ok tt
    | k :: ks =>
        match params with
        | None => Err AttributeError
        | Some p => if smem k p then validate params ks else Err ValueError
        end
    end.

  (** _populate_empty_param, task.py:47-50. *)
  Definition populate (params : option (sdict V)) (input : sdict V) : res (sdict V) :=
    match params with
    | None => Err AttributeError
    | Some p =>
        Ok (fold_left (fun inp kd => if smem (fst kd) inp then inp
                                     else sset (fst kd) (snd kd) inp) p input)
    end.

  (** Trace of one call: the inputs the body saw and the outputs it set, if it ran. *)
  Definition event := (sdict V * list V)%type.

  (** __call__, task.py:33-39 (set_log_name has no effect on the result and is not
      modelled).  Result: new instance, what the body observed (None if it did not run),
      value returned or exception. *)
  Definition call (exec : body) (t : task) (kwargs : sdict V)
    : task * option event * res V :=
    match validate (t_params t) (map fst kwargs) with
    | Err e => (t, None, Err e)
    | Ok _ =>
        match populate (t_params t) kwargs with
        | Err e => (t, None, Err e)
        | Ok inp =>
            let '(b', outs, err) := exec (t_state t) inp (t_output t) in
            let t' := {| t_params := t_params t;
                         t_output := last outs (t_output t);
                         t_state := b' |} in
            (t', Some (inp, outs),
             match err with Some e => Err e | None => Ok (t_output t') end)
        end
    end.

  (** A history of calls on one instance; each call may have its own body behaviour since
      [exec] is a function of the instance state. *)
  Fixpoint run_calls (exec : body) (t : task) (h : list (sdict V))
    : task * list (option event * res V) :=
    match h with
    | [] => (t, [])
    | kw :: h' =>
        let '(t1, ev, r) := call exec t kw in
        let '(t2, evs) := run_calls exec t1 h' in
        (t2, (ev, r) :: evs)
    end.

  (** Construction of an instance by a sequence of addTaskParam calls. *)
  Definition declare (b : B) (decls : list (string * V)) : task :=
    fold_left (fun t nd => add_task_param t (fst nd) (snd nd)) decls (fresh_task b).
End Task.
