(** Specification of the command line: what a user reads in the help.  *)
From Verif Require Import Base M_Args.
From Coq Require Import ZArith.
Open Scope string_scope.
Open Scope list_scope.

(** the two names of each option *)
Definition short_name (a : action) : ascii :=
  match a with Help => "h" | Payload => "p" | Targets => "t" | Output => "o" | Contrib => "c" | Threads => "n" | Debug => "d" | Log => "l" | Plot => "P" end%char.
Definition long_name (a : action) : string :=
  match a with Help => "--help" | Payload => "--payload" | Targets => "--targetList" | Output => "--output" | Contrib => "--full_contrib" | Threads => "--nThreads" | Debug => "--debug" | Log => "--log" | Plot => "--plot" end.
Definition with_value (a : action) : Prop := a = Payload \/ a = Targets \/ a = Output \/ a = Threads.
Definition a_flag (a : action) : Prop := a = Contrib \/ a = Debug \/ a = Log \/ a = Plot.

(** a long name may be cut short as long as it is that of one option only *)
Definition cut (w : string) (a : action) : Prop :=
  (exists r, long_name a = w ++ r)%string /\ forall b r, long_name b = (w ++ r)%string -> b = a.
Definition names (w : string) (a : action) : Prop :=
  w = String "-" (String (short_name a) "") \/ cut w a.

(** what a command line says, in order: an option with its value, or a flag *)
Inductive said := Says (a : action) (v : string) | Flag (a : action).

(** A word that starts with no dash is a value. *)
Definition plain (v : string) : Prop := forall r, v <> String "-" r.
(** the usual spellings: -p value, --payload value, --payload=value, -pvalue, -c, --full_contrib *)
Inductive spelled : list string -> list said -> Prop :=
| spelled_nothing : spelled [] []
| spelled_apart w a v ws l : names w a -> with_value a -> plain v -> spelled ws l -> spelled (w :: v :: ws) (Says a v :: l)
| spelled_equal w a v ws l : names w a -> with_value a -> v <> "--" -> spelled ws l -> spelled ((w ++ "=" ++ v)%string :: ws) (Says a v :: l)
| spelled_joined a c v ws l : with_value a -> c <> "="%char -> String c v <> "--" -> spelled ws l -> spelled (String "-" (String (short_name a) (String c v)) :: ws) (Says a (String c v) :: l)
| spelled_flag w a ws l : names w a -> a_flag a -> spelled ws l -> spelled (w :: ws) (Flag a :: l).

(** the value said last, and whether a flag was said *)
Fixpoint last_said (a : action) (l : list said) : option string :=
  match l with
  | [] => None
  | x :: r => match last_said a r with
              | Some v => Some v
              | None => match x with Says b v => if match a, b with Payload, Payload | Targets, Targets | Output, Output | Threads, Threads => true | _, _ => false end then Some v else None | Flag _ => None end
              end
  end.
(** every number of threads that is said is an integer *)
Definition integers (integer : string -> option Z) (l : list said) : Prop := forall v, In (Says Threads v) l -> integer v <> None.
(** the call of standard_pipeline is the one that was asked for *)
Record asked (integer : string -> option Z) (l : list said) (c : call) : Prop := {
  asked_payload : last_said Payload l = Some (c_options c);
  asked_targets : last_said Targets l = Some (c_target_list c);
  asked_output : last_said Output l = c_output c;
  asked_threads : match last_said Threads l with Some v => integer v = Some (c_n_thread c) | None => c_n_thread c = 1%Z end;
  asked_contrib : c_full_contrib c = true <-> In (Flag Contrib) l;
  asked_debug : c_debug c = true <-> In (Flag Debug) l;
  asked_log : c_log c = true <-> In (Flag Log) l;
  asked_plot : c_plot c = true <-> In (Flag Plot) l;
  asked_replace : c_replace c = true }.

(** Everything the command line can be taken to say: besides, letters of flags may be run together (-cd,
    -cdp value, -cdpvalue; an "=" after the first is passed over) and a value may start with a dash if
    it cannot be mistaken for an option.  [in_letters s l o]: the letters [s] say [l], and the last
    of them waits for the value of [o]. *)
Inductive in_letters : string -> list said -> option action -> Prop :=
| letters_flag a : a_flag a -> in_letters (String (short_name a) "") [Flag a] None
| letters_wait a : with_value a -> in_letters (String (short_name a) "") [] (Some a)
| letters_joined a v : with_value a -> v <> "" -> in_letters (String (short_name a) v) [Says a v] None
| letters_more a s l o : a_flag a -> in_letters s l o -> in_letters (String (short_name a) s) (Flag a :: l) o.
Inductive word : string -> list said -> option action -> Prop :=
| word_flag w a : names w a -> a_flag a -> word w [Flag a] None
| word_wait w a : names w a -> with_value a -> word w [] (Some a)
| word_equal w a v : names w a -> with_value a -> word (w ++ "=" ++ v)%string [Says a v] None
| word_letters s l o : in_letters s l o -> word (String "-" s) l o
| word_passed a s l o : a_flag a -> in_letters s l o -> word (String "-" (String (short_name a) (String "=" s))) (Flag a :: l) o.
Inductive read : list string -> list said -> Prop :=
| read_nothing : read [] []
| read_word w l ws m : word w l None -> read ws m -> read (w :: ws) (l ++ m)
| read_with w l a v ws m : word w l (Some a) -> read ws m -> read (w :: v :: ws) (l ++ Says a v :: m).
