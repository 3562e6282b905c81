(** Model of the full contributions, exorad/exorad.py:87-97 (standard_pipeline with full_contrib)
    and of the signal table they are taken from, models/optics/opticalPath.py:350-352.  Definitions
    only. *)
From Verif Require Import Base XR M_Light M_Table M_Observe.
Open Scope list_scope.

(** signal_table, opticalPath.py:351: one column "<element> signal" per emitting element *)
Definition signal_table (em : emission) : table :=
  map (fun e => ((fst e ++ " signal")%string, map num (snd (snd e)))) (by_element em).

(** exorad.py:88-97: the table of each channel and its signal table side by side, without the
    column instrument_signal.  [tables]: the signal table of each channel *)
Definition full_channels (tables : string -> table) (chs : channels) : channels :=
  map (fun a => (fst a, with_table (snd a) {| cols := full_contrib (cols (h_table (snd a))) (tables (fst a)); meta := meta (h_table (snd a)) |})) chs.
