(** Model of the log: exorad/log/__init__.py:56-92, exorad/log/logger.py:49-82 and the part of
    standard_pipeline (exorad/exorad.py:50-60) that sets it up.  Definitions only.  Python's logging: a
    message at a level below that of the logger "exorad" (DEBUG; its children have none of their own,
    and it does not propagate) is dropped, any other is offered to the handlers of "exorad" in the order
    in which they were added; each drops what is below its own level.  Simplified: the text of a message
    stands for the formatted line; that a file can be opened for appending is an argument, and so is the
    absolute path of a name. *)
From Coq Require Import ZArith.
From Verif Require Import Base.
Open Scope Z_scope.
Open Scope list_scope.

Definition DEBUG : Z := 10.
Definition INFO : Z := 20.
Definition ERROR : Z := 40.
(** root_logger, logger.py:49-78: its first handler is the one for the console; it is followed by
    handlers for files.  [rank]: utils/mpi.py get_rank at import, 0 without mpi4py. *)
Record logging := { console : Z; files : list string; rank : Z }.
(** logger.py:74-78: ch.setLevel(logging.INFO) *)
Definition imported (r : Z) : logging := {| console := INFO; files := []; rank := r |}.
(** setLogLevel, log/__init__.py:52-58: the level of the first handler *)
Definition setLogLevel (l : Z) (s : logging) : logging := {| console := l; files := files s; rank := rank s |}.
(** addLogFile, log/__init__.py:82-92: one more handler, at DEBUG; FileHandler opens the file *)
Definition addLogFile (opens : string -> bool) (abs : string -> string) (f : string) (s : logging) : res logging :=
  if opens (abs f) then Ok {| console := console s; files := files s ++ [abs f]; rank := rank s |} else Err OSError.

Inductive sink := Console | LogFile (f : string).
(** ExoRadHandler.emit, logger.py:62-70, and the handlers' levels *)
Definition emit (s : logging) (l : Z) (text : string) : list (sink * string) :=
  if l <? DEBUG then []
  else (if (console s <=? l) && ((rank s =? 0) || (ERROR <=? l)) then [(Console, text)] else [])
       ++ map (fun f => (LogFile f, text)) (filter (fun _ => DEBUG <=? l) (files s)).

(** What the steps of the pipeline do to the log: messages, and levels set (disableLogging is
    setLogLevel(ERROR), enableLogging is setLogLevel(INFO)).  Nothing but standard_pipeline calls
    addLogFile. *)
Inductive action := Say (l : Z) (text : string) | SetLevel (l : Z).
Fixpoint act (s : logging) (b : list action) : logging * list (sink * string) :=
  match b with
  | [] => (s, [])
  | Say l t :: b => let (s', o) := act s b in (s', emit s l t ++ o)
  | SetLevel l :: b => act (setLogLevel l s) b
  end.

(** The argument log: a bool, or a name *)
Inductive log_arg := LogFlag (b : bool) | LogName (f : string).
Record run := { r_debug : bool; r_log : log_arg; r_body : list action }.
Definition ascii_art : string := "ExoRad".
Definition code_version : string := "code version".
(** standard_pipeline, exorad.py:50-60, and then the steps; the state is that of the process, and a
    failure leaves it as it is *)
Definition standard_pipeline (opens : string -> bool) (abs : string -> string) (s : logging) (r : run) : logging * list (sink * string) * res unit :=
  let head := emit s INFO ascii_art ++ emit s INFO code_version in
  let s := if r_debug r then setLogLevel DEBUG s else s in
  match (match r_log r with
         | LogName f => addLogFile opens abs f s
         | LogFlag true => addLogFile opens abs "exorad.log" s
         | LogFlag false => Ok s
         end) with
  | Err e => (s, head, Err e)
  | Ok s => let (s', o) := act s (r_body r) in (s', head ++ o, Ok tt)
  end.
(** The runs of one process *)
Fixpoint runs (opens : string -> bool) (abs : string -> string) (s : logging) (l : list run) : logging * list (sink * string) :=
  match l with
  | [] => (s, [])
  | r :: l => let '(s, o, _) := standard_pipeline opens abs s r in let (s', o') := runs opens abs s l in (s', o ++ o')
  end.
