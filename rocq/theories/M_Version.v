(** Model of exorad/utils/version_control.py:20-39, 62-83: the update check on the lines of
    the published change log.  Definitions only.  The network part (23, 41-60, 85-101) is
    not modelled: the content is an argument.  Line break characters are represented by
    ["010"]. *)
From Verif Require Import Base PyStr.
Open Scope list_scope.

Definition nl : string := String (Ascii.ascii_of_nat 10) "".

(** str.find for a one-character pattern, -1 when absent *)
Fixpoint str_find (c : ascii) (s : string) (i : Z) : Z :=
  match s with
  | EmptyString => (-1)%Z
  | String a s' => if Ascii.eqb a c then i else str_find c s' (i + 1)%Z
  end.
(** s[a:b]; negative bounds count from the end, bounds are clipped *)
Definition clip (n : nat) (i : Z) : nat :=
  let j := if (i <? 0)%Z then (i + Z.of_nat n)%Z else i in
  Nat.min n (Z.to_nat j).
Definition str_slice (a b : Z) (s : string) : string :=
  let n := String.length s in
  String.substring (clip n a) (clip n b - clip n a) s.

(** inner loop, version_control.py:77-81 *)
Fixpoint changes (current : string) (lines : list string) : string :=
  match lines with
  | [] => ""
  | l :: ls => if contains current l then ""
               else if String.eqb l "" then changes current ls
               else (l ++ nl ++ changes current ls)%string
  end.

(** get_message, version_control.py:62-83: (message, new version) *)
Fixpoint get_message (current : string) (lines : list string) : string * string :=
  match lines with
  | [] => ("", "")
  | l :: ls =>
      if contains "## [" l then
        if contains "## [Unreleased]" l then get_message current ls
        else if contains ("[" ++ current ++ "]")%string l then ("", "")
        else ((l ++ nl ++ changes current ls)%string,
              str_slice (str_find "["%char l 0 + 1)%Z (str_find "]"%char l 0) l)
      else get_message current ls
  end.

(** __init__, version_control.py:23-39, once the content is there: warnings and, with
    force, the error *)
Definition check_version (current : string) (force : bool) (content : list string)
  : option (string * string) * res unit :=
  match content with
  | [] => (None, Ok tt)
  | _ => let '(m, v) := get_message current content in
         if String.eqb m "" then (None, Ok tt)
         else (Some (v, m), if force then Err VersionError else Ok tt)
  end.
