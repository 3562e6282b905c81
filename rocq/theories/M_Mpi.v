(** Model of utils/mpi.py: the processes of a parallel run, all of which run the same program.
    Definitions only.  Simplifications: mpi4py either is installed for all processes or for none
    ([None]); importing it without its being there is [OtherError].  The lower case scatter and gather
    of mpi4py follow their documentation: they copy objects (pickling is taken to be exact), scatter
    wants as many items as there are processes at the root and looks at nothing elsewhere.  A process
    that has entered a collective operation which another one never enters is taken to wait for ever;
    MPI lets it return in some cases.  @lru_cache changes nothing, neither number ever changing. *)
From Verif Require Import Base.
From Coq Require Import Arith List Lia.
Import ListNotations.
Open Scope list_scope.
Open Scope nat_scope.

(** nprocs(): mpi.py:5-23 *)
Definition nprocs (mpi : option nat) : nat := match mpi with Some n => n | None => 1 end.
(** get_rank(): mpi.py:26-43, in the process [r] of those MPI started *)
Definition get_rank (mpi : option nat) (r : nat) : nat := match mpi with Some _ => r | None => 0 end.

(** How a call ends in one of the processes *)
Inductive ended (A : Type) := Returns (a : A) | Raises (e : exn) | Waits.
Arguments Returns {A} a.
Arguments Raises {A} e.
Arguments Waits {A}.

(** scatter(data, root): mpi.py:46-55, up to the exchange: what process [r] of [n] sends, or the error.
    [None] is Python's None, which has no length. *)
Definition to_send {A} (n root r : nat) (data : option (list A)) : res (list A) :=
  match data with
  | None => Err TypeError
  | Some l =>
      if length l <? n then Err ValueError
      else if (r =? root) && negb (length l =? n) then Err ValueError
      else Ok l
  end.
Fixpoint sending {A} (n root r : nat) (args : list (option (list A))) : list (res (list A)) :=
  match args with [] => [] | d :: args' => to_send n root r d :: sending n root (S r) args' end.
(** the exchange: item [r] of what the root sends goes to process [r] *)
Definition handed_out {A} (sent : list (res (list A))) (root : nat) : list (ended A) :=
  if forallb is_ok sent then
    match nth_error sent root with Some (Ok l) => map Returns l | _ => map (fun _ => Waits) sent end
  else map (fun s => match s with Ok _ => Waits | Err e => Raises e end) sent.
(** scatter in all processes, called with [args] *)
Definition scatter {A} (mpi : option nat) (root : nat) (args : list (option (list A))) : list (ended A) :=
  match mpi with
  | None => map (fun _ => Raises OtherError) args
  | Some n => handed_out (sending n root 0 args) root
  end.
(** gather(data, root): mpi.py:58-63, in all processes: the list at the root, None elsewhere *)
Fixpoint collected {A} (root r : nat) (all args : list A) : list (ended (option (list A))) :=
  match args with [] => [] | _ :: args' => Returns (if r =? root then Some all else None) :: collected root (S r) all args' end.
Definition gather {A} (mpi : option nat) (root : nat) (args : list A) : list (ended (option (list A))) :=
  match mpi with
  | None => map (fun _ => Raises OtherError) args
  | Some _ => collected root 0 args args
  end.
