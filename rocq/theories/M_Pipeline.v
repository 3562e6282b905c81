(** Model of exorad/tasks/targetHandler.py:267-401 (pipeline_to_dict, ObserveTargetlist),
    exorad/log/__init__.py:56-80, the file part of exorad/exorad.py:39-121
    (standard_pipeline), exorad/tasks/instrumentHandler.py:75-150, 206-288 (writing of the
    payload) and exorad/models/target.py:43-49.  Definitions only.
    Simplifications: Target and channel objects are abstract; observing a target is any function of the
    channels and the target that may change the channels (they are shared objects); the
    result of a worker process is the same whether or not it travels through pickle; a
    killed worker (BrokenProcessPool) is not modelled; plots either succeed or raise. *)
From Verif Require Import Base PyStr M_Hdf5.
Open Scope list_scope.

(** ** Logging levels, log/__init__.py:56-80 *)
Inductive level := DEBUG | INFO | ERROR.
(** setLogLevel(level): the level of the console handler, whatever it was *)
Definition setLogLevel (new old : level) : level := new.
Definition disableLogging (l : level) : level := setLogLevel ERROR l.
Definition enableLogging (l : level) : level := setLogLevel INFO l.

(** an item of outputDict: a name (None for failed targets) and a target *)
Notation entry T := (option string * option T)%type.

Section Observe.
  Variables Tgt Ch : Type.
  Variable name : Tgt -> string.                       (* target.name *)
  Variable observe : Ch -> Tgt -> Ch * res Tgt.        (* ObserveTarget, targetHandler.py:222-264 *)
  Variable plotting : Tgt -> res unit.                 (* targetHandler.py:294-306 *)

  (** pipeline_to_dict, targetHandler.py:267-315; the last component is the logging level in
      force while observing. *)
  Definition pipeline_to_dict (debug plot : bool) (st : Ch * level) (t : Tgt)
    : (Ch * level) * entry Tgt * level :=
    let '(ch, lv) := st in
    let lv1 := if debug then lv else disableLogging lv in
    match observe ch t with
    | (ch', Ok t') =>
        let lv2 := enableLogging lv1 in
        if plot then
          match plotting t' with
          | Ok _ => ((ch', lv2), (Some (name t'), Some t'), lv1)
          | Err _ => ((ch', enableLogging lv2), (None, None), lv1)
          end
        else ((ch', lv2), (Some (name t'), Some t'), lv1)
    | (ch', Err _) => ((ch', enableLogging lv1), (None, None), lv1)
    end.

  (** Python's [==] on the keys (strings or None) *)
  Definition key_eqb (a b : option string) : bool :=
    match a, b with
    | Some x, Some y => String.eqb x y
    | None, None => true
    | _, _ => false
    end.

  (** sequential branch of ObserveTargetlist.execute, targetHandler.py:393-399 *)
  Fixpoint observe_seq (debug plot : bool) (ts : list Tgt) (st : Ch * level)
           (out : list (entry Tgt)) (lvls : list level) : (Ch * level) * list (entry Tgt) * list level :=
    match ts with
    | [] => (st, out, lvls)
    | t :: ts' =>
        let '(st', (k, v), l) := pipeline_to_dict debug plot st t in
        observe_seq debug plot ts' st' (dset key_eqb k v out) (lvls ++ [l])
    end.

  (** parallel branch, targetHandler.py:371-392: ProcessPoolExecutor.map with chunk size 1.
      The calls are queued in order with pickled arguments (each call gets its own copy of
      the channels of the main process); any idle worker takes the next call of the queue;
      any busy worker may finish; the main loop takes the results in submission order. *)
  Record pool := {
    queue : list nat;                         (* indices not yet started *)
    workers : list (option nat * level);      (* call in progress and logging level *)
    finished : list (nat * entry Tgt);            (* results not ordered *)
    collected : nat;                          (* results taken by the main loop *)
    out_dict : list (entry Tgt)                     (* outputDict *)
  }.
  Definition pool0 (n_thread : nat) (lv : level) (n : nat) : pool :=
    {| queue := seq 0 n; workers := repeat (None, lv) n_thread; finished := [];
       collected := 0; out_dict := [] |}.

  Definition set_nth {A} (i : nat) (x : A) (l : list A) : list A := firstn i l ++ x :: skipn (S i) l.

  Inductive pstep (debug plot : bool) (ch : Ch) (ts : list Tgt) : pool -> pool -> Prop :=
  | P_start p w lv i q :
      nth_error (workers p) w = Some (None, lv) -> queue p = i :: q ->
      pstep debug plot ch ts p
        {| queue := q; workers := set_nth w (Some i, lv) (workers p);
           finished := finished p; collected := collected p; out_dict := out_dict p |}
  | P_finish p w lv i t st' e l :
      nth_error (workers p) w = Some (Some i, lv) -> nth_error ts i = Some t ->
      pipeline_to_dict debug plot (ch, lv) t = (st', e, l) ->
      pstep debug plot ch ts p
        {| queue := queue p; workers := set_nth w (None, snd st') (workers p);
           finished := (i, e) :: finished p; collected := collected p; out_dict := out_dict p |}
  | P_collect p k v :
      In (collected p, (k, v)) (finished p) ->
      pstep debug plot ch ts p
        {| queue := queue p; workers := workers p; finished := finished p;
           collected := S (collected p); out_dict := dset key_eqb k v (out_dict p) |}.

  Inductive psteps (debug plot : bool) (ch : Ch) (ts : list Tgt) : pool -> pool -> Prop :=
  | P_refl p : psteps debug plot ch ts p p
  | P_trans p q r : pstep debug plot ch ts p q -> psteps debug plot ch ts q r ->
                    psteps debug plot ch ts p r.
End Observe.
Arguments pipeline_to_dict {Tgt Ch}. Arguments observe_seq {Tgt Ch}. Arguments pool0 {Tgt}.
Arguments queue {Tgt}. Arguments workers {Tgt}. Arguments finished {Tgt}.
Arguments collected {Tgt}. Arguments out_dict {Tgt}. Arguments pstep {Tgt Ch}. Arguments psteps {Tgt Ch}.

(** The columns of ObserveTarget that matter for the difference between sequential and parallel
    runs: PrepareTarget (targetHandler.py:88-97) gives the target the columns of the channel
    table as they are now; propagating the light then sets the column "sky TR" of the
    *channel* table (instrument.py:362-366) from the target's sky transmission, if it has one.
    One channel, one row. *)
Record sky_target (V : Type) := { t_name : string; t_sky : option V; t_table : list (string * V) }.
Arguments t_name {V}. Arguments t_sky {V}. Arguments t_table {V}.
Definition observe_sky {V} (ch : list (string * V)) (t : sky_target V)
  : list (string * V) * res (sky_target V) :=
  (match t_sky t with Some v => sset "sky TR" v ch | None => ch end,
   Ok {| t_name := t_name t; t_sky := t_sky t; t_table := ch |}).

(** ** The output file *)
Section Files.
  Variable V : Type.
  Notation file := (list (string * h5 V)).
  Notation dict := (list (string * item V)).

  (** [f] applied to the group [key], created if needed (hdf5.py:120-127, 231-239); on a
      dataset of that name every creation fails. *)
  Definition in_group {A} (g : file) (key : string) (f : file -> file * res A) : file * res A :=
    match sget key g with
    | None => let '(s, r) := f [] in (g ++ [(key, G s)], r)
    | Some (G s0) => let '(s, r) := f s0 in (sset key (G s) g, r)
    | Some (D _) => (g, Err AttributeError)
    end.

  (** Target.write, target.py:43-49 *)
  Definition write_target (f : file) (nm : string) (d : dict) : file * res unit :=
    in_group f "targets" (fun g => store_dictionary g d (Some nm)).

  (** step 4 of standard_pipeline, exorad.py:117-121.  Entries: key of the dictionary and
      target (its to_dict), None for a failed one, whose [.write] is an AttributeError -
      raised after the file has been opened. *)
  Fixpoint save_targets (prev : option file) (info : list (string * string))
           (es : list (option string * option dict)) : option file * res unit :=
    match es with
    | [] => (prev, Ok tt)
    | (k, v) :: es' =>
        match open_file prev true info with
        | (f, Err e) => (Some f, Err e)
        | (f, Ok _) =>
            match v with
            | None => (Some f, Err AttributeError)
            | Some d =>
                match write_target f (match k with Some s => s | None => "None" end) d with
                | (f', Ok _) => save_targets (Some f') info es'
                | (f', Err e) => (Some f', Err e)
                end
            end
        end
    end.

  (** A channel to build: its description and the outcome of building it (table and
      built_instr), instrumentHandler.py:112-147; Instrument.write, instrument.py:73-84. *)
  Record channel := { c_name : string; c_descr : dict; c_built : res (table V * dict) }.
  Definition write_channel (g : file) (c : channel) : file * res unit :=
    match c_built c with
    | Err e => (g, Err e)
    | Ok (t, b) =>
        in_group g (c_name c) (fun g =>
          then_ (write_table g (c_name c) t) (fun g =>
          then_ (store_dictionary g (c_descr c) (Some "description")) (fun g =>
          store_dictionary g b (Some "built_instr"))))
    end.
  Fixpoint write_channels (g : file) (cs : list channel) : file * res unit :=
    match cs with
    | [] => (g, Ok tt)
    | c :: cs' => then_ (write_channel g c) (fun g => write_channels g cs')
    end.
  (** BuildChannels with write=True, instrumentHandler.py:102-148 *)
  Definition build_channels (f : file) (payload : dict) (cs : list channel) : file * res unit :=
    in_group f "payload" (fun g =>
      then_ (store_dictionary g payload (Some "payload description")) (fun g =>
      in_group g "channels" (fun g => write_channels g cs))).

  (** The payload argument: an XML file or dictionary to build, or an HDF5 file already
      built (instrumentHandler.py:248-282). *)
  Inductive payload_arg := Xml (payload : dict) (cs : list channel) | H5payload | Unsupported.

  (** standard_pipeline with an output file, exorad.py:39-121: [prev] is the file at [output]
      before the call, [observed] the dictionary returned by ObserveTargetlist (or the error
      of an earlier step).  A missing [options] file makes shutil.copy raise (an OSError). *)
  Definition standard_pipeline (options output : string) (replace : bool) (info : list (string * string))
             (arg : payload_arg) (observed : res (list (option string * option dict)))
             (prev : option file) : option file * res unit :=
    let prev1 := if replace then None else prev in
    if String.eqb options output && negb (match prev1 with Some _ => true | None => false end)
    then (prev1, Err OSError)
    else
      let prepared :=
        match arg with
        | Xml payload cs =>
            match open_file prev1 (match prev1 with Some _ => true | None => false end) info with
            | (f, Err e) => (Some f, Err e)
            | (f, Ok _) => let '(f', r) := build_channels f payload cs in (Some f', r)
            end
        | H5payload => (prev1, Ok tt)
        | Unsupported => (prev1, Err OSError)
        end in
      match prepared with
      | (f, Err e) => (f, Err e)
      | (f, Ok _) =>
          match observed with
          | Err e => (f, Err e)
          | Ok es => save_targets f info es
          end
      end.
End Files.
Arguments in_group {V A}. Arguments write_target {V}. Arguments save_targets {V}.
Arguments write_channel {V}. Arguments write_channels {V}. Arguments build_channels {V}.
Arguments standard_pipeline {V}. Arguments Xml {V}. Arguments H5payload {V}. Arguments Unsupported {V}.
Arguments c_name {V}. Arguments c_descr {V}. Arguments c_built {V}.
