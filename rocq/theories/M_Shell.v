(** Model of the command exorad as a whole: exorad/exorad.py:124-213 (main with argparse, M_Args) and what
    its call of standard_pipeline does to the file system (M_Command).  Definitions only.  Simplified: the
    log file of --log is left out (M_Log, M_Command); [resolve] is the path a name stands for in
    the working directory; the exit status is that of the Python interpreter: 1 after an exception. *)
From Verif Require Import Base M_Args.
From Verif Require M_Hdf5 M_Pipeline M_Command.
From Coq Require Import ZArith.
Open Scope list_scope.

Section Shell.
  Context {B V P L : Type}.
  Variable integer : string -> option Z.
  Variable resolve : string -> M_Command.path.
  Variable meaning : M_Command.argument -> option (M_Command.content B V P) -> res (M_Pipeline.payload_arg V).
  Variable listing : M_Command.argument -> option (M_Command.content B V P) -> res L.
  Variable further : bool -> M_Pipeline.payload_arg V -> res (M_Pipeline.payload_arg V).       (* full_contrib *)
  Variable efficiency : M_Pipeline.payload_arg V -> res P.
  Variable observing : Z -> bool -> M_Pipeline.payload_arg V -> L -> bool -> option M_Command.path ->    (* n_thread, debug *)
                       res (list (option string * option (list (string * M_Hdf5.item V))) * list (string * P)).

  Definition command (info : list (string * string)) (words : list string) (s : M_Command.fs B V P) : M_Command.fs B V P * nat :=
    match M_Args.main integer words with
    | inr n => (s, n)
    | inl c =>
        let (s', r) := M_Command.run meaning listing (further (c_full_contrib c)) efficiency (observing (c_n_thread c) (c_debug c))
                         (M_Command.Path (resolve (c_options c))) (M_Command.Path (resolve (c_target_list c))) (option_map resolve (c_output c))
                         (c_plot c) (c_replace c) info s in
        (s', match r with Ok _ => O | Err _ => 1%nat end)
    end.
End Shell.
