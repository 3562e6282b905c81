(** Specification of the log (C116). *)
From Coq Require Import ZArith.
From Verif Require Import Base M_Log.
Open Scope Z_scope.
Open Scope list_scope.

(** What was written to one place, in order *)
Definition written (k : sink) (o : list (sink * string)) : list string :=
  flat_map (fun x => match fst x, k with
                     | Console, Console => [snd x]
                     | LogFile f, LogFile g => if string_dec f g then [snd x] else []
                     | _, _ => []
                     end) o.
(** The messages of a run that count: level DEBUG (10) or more *)
Definition messages (b : list action) : list string := flat_map (fun a => match a with Say l t => if Z_le_dec 10 l then [t] else [] | SetLevel _ => [] end) b.
(** Each message [n] times *)
Definition copies (n : nat) (l : list string) : list string := flat_map (fun t => repeat t n) l.
(** The file a run logs to, if any *)
Definition log_file (r : run) : option string := match r_log r with LogFlag false => None | LogFlag true => Some "exorad.log"%string | LogName f => Some f end.
(** The run starts: it has no log file, or one that can be opened. *)
Definition starts (opens : string -> bool) (abs : string -> string) (r : run) : Prop := forall f, log_file r = Some f -> opens (abs f) = true.
(** How many of the runs opened the log file with the absolute path [f] *)
Fixpoint opened (opens : string -> bool) (abs : string -> string) (f : string) (l : list run) : nat :=
  match l with
  | [] => 0
  | r :: l => (match log_file r with Some g => if string_dec (abs g) f then if opens f then 1 else 0 else 0 | None => 0 end + opened opens abs f l)%nat
  end.
(** The level in force: the one set last, INFO (20) at first; debug sets DEBUG (10) *)
Fixpoint set_by (lvl : Z) (b : list action) : Z := match b with [] => lvl | SetLevel l :: b => set_by l b | Say _ _ :: b => set_by lvl b end.
Fixpoint left_by (opens : string -> bool) (abs : string -> string) (lvl : Z) (l : list run) : Z :=
  match l with
  | [] => lvl
  | r :: l => let lvl := if r_debug r then 10 else lvl in
              left_by opens abs (match log_file r with Some f => if opens (abs f) then set_by lvl (r_body r) else lvl | None => set_by lvl (r_body r) end) l
  end.
(** The messages seen on the console of the process with rank [rk] *)
Definition seen_at (rk lvl l : Z) : bool := (lvl <=? l) && (10 <=? l) && ((rk =? 0) || (40 <=? l)).
Fixpoint on_console (rk lvl : Z) (b : list action) : list string :=
  match b with
  | [] => []
  | SetLevel l :: b => on_console rk l b
  | Say l t :: b => (if seen_at rk lvl l then [t] else []) ++ on_console rk lvl b
  end.
(** What a run adds to what the process has written *)
Definition adds (opens : string -> bool) (abs : string -> string) (rk : Z) (before : list run) (r : run) (o : list (sink * string)) : Prop :=
  snd (runs opens abs (imported rk) (before ++ [r])) = snd (runs opens abs (imported rk) before) ++ o.
