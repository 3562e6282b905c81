(** Specification vocabulary for the file system around a run (C111-C113). *)
From Verif Require Import Base M_Command.
Open Scope list_scope.

(** A file system: the root is a directory and whatever exists lies in a directory. *)
Definition sound_fs {B V P} (s : fs B V P) : Prop :=
  s [] = Some Folder /\ forall p n, s (p ++ [n]) <> None -> s p = Some Folder.

(** [p] is [d] or one of the directories around it. *)
Definition around (p d : path) : Prop := exists q, p ++ q = d.

(** [d] is a directory, or can be made: no file stands in the way. *)
Definition no_file_around {B V P} (s : fs B V P) (d : path) : Prop :=
  forall p c, around p d -> s p <> Some (File c).

(** A name of an image. *)
Definition image_name (x : string) : Prop := exists n, x = (n ++ ".png")%string.
