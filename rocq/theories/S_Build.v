(** Vocabulary: built channels. *)
From Coq Require Import Reals.
From Verif Require Import Base XR M_Signal M_Optics M_Light M_Bins M_Star M_Source M_Table M_Observe M_Build.
From Verif Require M_Noise.
Open Scope list_scope.
Open Scope R_scope.

(** The columns of every built channel *)
Definition channel_columns : list string :=
  ["chName"; "Wavelength"; "Bandwidth"; "LeftBinEdge"; "RightBinEdge"; "QE"; "WindowSize"; "TR"; "instrument_signal"; "instrument_MaxSignal_inPixel"]%string.
(** A band of wavelengths; a resolution, if it is a number, is positive. *)
Definition proper_band (d : description) : Prop :=
  0 < d_min d < d_max d /\ forall r, d_targetR d = Some (FixedR r) -> 0 < r.
(** Channels under their own names, no two under the same *)
Definition named (l : list (string * description)) : Prop :=
  NoDup (map fst l) /\ forall name d, In (name, d) l -> M_Noise.ch_name (d_detector d) = name.
(** What becomes of a list of computations, one after the other: all results, or the first failure;
    a computation that does not end is none of both *)
Inductive in_turn {A B} (f : A -> option (res B)) : list A -> res (list B) -> Prop :=
| Turn_all l out : Forall2 (fun a b => f a = Some (Ok b)) l out -> in_turn f l (Ok out)
| Turn_fails before a after out e : Forall2 (fun a b => f a = Some (Ok b)) before out -> f a = Some (Err e) -> in_turn f (before ++ a :: after) (Err e).
