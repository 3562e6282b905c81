(** Model of the command line: exorad/exorad.py:124-213 (main), with Python's argparse.  Definitions only.
    argparse is modelled by its algorithm (Python 3.8 to 3.11): every word is first classified as an
    option or a value, then the words are consumed from the left.  Simplified: that the text of a number
    is an integer, and which one, is an argument; a negative number ending in a newline is not taken for
    one; the text printed before leaving is left out, and only the exit status is kept (0: help, 2: an
    error of the command line, 1: an exception). *)
From Verif Require Import Base.
From Coq Require Import ZArith.
Open Scope string_scope.
Open Scope list_scope.

(** the options, exorad.py:127-197, and --help, which argparse adds *)
Inductive action := Help | Payload | Targets | Output | Contrib | Threads | Debug | Log | Plot.
Definition option_strings : list (string * action) :=
  [("-h", Help); ("--help", Help); ("-p", Payload); ("--payload", Payload); ("-t", Targets); ("--targetList", Targets);
   ("-o", Output); ("--output", Output); ("-c", Contrib); ("--full_contrib", Contrib); ("-n", Threads); ("--nThreads", Threads);
   ("-d", Debug); ("--debug", Debug); ("-l", Log); ("--log", Log); ("-P", Plot); ("--plot", Plot)].
(** exorad.py:127-197: those without action="store_true" *)
Definition takes_value (a : action) : bool := match a with Payload | Targets | Output | Threads => true | _ => false end.

(** the namespace, with the defaults of exorad.py:127-197 *)
Record settings := { a_payload : option string; a_targets : option string; a_output : option string; a_contrib : bool; a_threads : Z; a_debug : bool; a_log : bool; a_plot : bool }.
Definition defaults : settings := {| a_payload := None; a_targets := None; a_output := None; a_contrib := false; a_threads := 1; a_debug := false; a_log := false; a_plot := false |}.

(** str.split("=", 1), if there is one *)
Fixpoint split_eq (s : string) : option (string * string) :=
  match s with
  | "" => None
  | String c r => if Ascii.eqb c "=" then Some ("", r) else match split_eq r with Some (a, b) => Some (String c a, b) | None => None end
  end.
Fixpoint all_digits (s : string) : bool :=
  match s with "" => true | String c r => andb (andb (48 <=? nat_of_ascii c) (nat_of_ascii c <=? 57))%nat (all_digits r) end.
Fixpoint has_char (x : ascii) (s : string) : bool := match s with "" => false | String c r => orb (Ascii.eqb c x) (has_char x r) end.
Fixpoint decimal (s : string) : bool :=
  match s with "" => false | String c r => if Ascii.eqb c "." then andb (negb (String.eqb r "")) (all_digits r) else andb (all_digits (String c "")) (decimal r) end.
(** argparse's _negative_number_matcher: -\d+ or -\d*\.\d+ *)
Definition negative_number (s : string) : bool :=
  match s with String "-" r => orb (andb (negb (String.eqb r "")) (all_digits r)) (decimal r) | _ => false end.

(** what argparse takes a word for: a value, "--", a known option with a value in the same word or
    without, or an unknown option *)
Inductive token := Value (v : string) | Dashes | Known (a : action) (long : bool) (explicit : option string) | Unknown.
Definition is_long (s : string) : bool := String.prefix "--" s.

(** ArgumentParser._get_option_tuples *)
Definition option_tuples (s : string) : list token :=
  if is_long s then
    let '(p, e) := match split_eq s with Some (p, e) => (p, Some e) | None => (s, None) end in
    map (fun oa => Known (snd oa) (is_long (fst oa)) e) (filter (fun oa => String.prefix p (fst oa)) option_strings)
  else
    match s with
    | String x (String y e) =>
        flat_map (fun oa => if String.eqb (fst oa) (String x (String y "")) then [Known (snd oa) (is_long (fst oa)) (Some e)]
                            else if String.prefix s (fst oa) then [Known (snd oa) (is_long (fst oa)) None] else []) option_strings
    | _ => []
    end.
(** ArgumentParser._parse_optional; the ambiguous are an error *)
Definition classify (s : string) : option token :=
  match s with
  | String "-" r =>
      match sget s option_strings with
      | Some a => Some (Known a (is_long s) None)
      | None =>
          if String.eqb r "" then Some (Value s) else
          match match split_eq s with Some (o, e) => match sget o option_strings with Some a => Some (Known a (is_long o) (Some e)) | None => None end | None => None end with
          | Some t => Some t
          | None =>
              match option_tuples s with
              | [t] => Some t
              | _ :: _ => None
              | [] => if negative_number s then Some (Value s) else if has_char " " s then Some (Value s) else Some Unknown
              end
          end
      end
  | _ => Some (Value s)
  end.
(** the pattern of _parse_known_args: after "--" every word is a value *)
Fixpoint classify_all (l : list string) : option (list token) :=
  match l with
  | [] => Some []
  | w :: r =>
      if String.eqb w "--" then Some (Dashes :: map Value r) else
      match classify w with
      | None => None
      | Some t => match classify_all r with Some ts => Some (t :: ts) | None => None end
      end
  end.

(** consume_optional with a value in the same word.  A long flag refuses it; a short flag takes its first
    letter for the next option.  The result: the options to act on, the last of them possibly without the
    value it needs. *)
Fixpoint letters (a : action) (e : string) : nat + list (action * option string) :=
  if takes_value a then inr [(a, Some e)] else
  match e with
  | "" => inl 1                                  (* explicit_arg[0]: IndexError *)
  | String c r =>
      match sget (String "-" (String c "")) option_strings with
      | None => inl 2
      | Some b => if String.eqb r "" then inr [(a, None); (b, None)]
                  else match letters b r with inl n => inl n | inr l => inr ((a, None) :: l) end
      end
  end.
Definition explicit_actions (a : action) (long : bool) (e : option string) : nat + list (action * option string) :=
  match e with
  | None => inr [(a, None)]
  | Some e => if takes_value a then inr [(a, Some e)] else if long then inl 2 else letters a e
  end.

Section Parse.
  Variable integer : string -> option Z.         (* int(), None for a ValueError *)

  Inductive outcome := Ran (s : settings) | Left (status : nat).
  (** take_action for a flag *)
  Definition flag (a : action) (s : settings) : settings + nat :=
    match a with
    | Help => inr 0
    | Contrib => inl {| a_payload := a_payload s; a_targets := a_targets s; a_output := a_output s; a_contrib := true; a_threads := a_threads s; a_debug := a_debug s; a_log := a_log s; a_plot := a_plot s |}
    | Debug => inl {| a_payload := a_payload s; a_targets := a_targets s; a_output := a_output s; a_contrib := a_contrib s; a_threads := a_threads s; a_debug := true; a_log := a_log s; a_plot := a_plot s |}
    | Log => inl {| a_payload := a_payload s; a_targets := a_targets s; a_output := a_output s; a_contrib := a_contrib s; a_threads := a_threads s; a_debug := a_debug s; a_log := true; a_plot := a_plot s |}
    | Plot => inl {| a_payload := a_payload s; a_targets := a_targets s; a_output := a_output s; a_contrib := a_contrib s; a_threads := a_threads s; a_debug := a_debug s; a_log := a_log s; a_plot := true |}
    | _ => inl s
    end.
  (** take_action with a value; "--" is removed from the values first, and none is left *)
  Definition store (a : action) (v : string) (s : settings) : settings + nat :=
    if String.eqb v "--" then inr 1 else
    match a with
    | Payload => inl {| a_payload := Some v; a_targets := a_targets s; a_output := a_output s; a_contrib := a_contrib s; a_threads := a_threads s; a_debug := a_debug s; a_log := a_log s; a_plot := a_plot s |}
    | Targets => inl {| a_payload := a_payload s; a_targets := Some v; a_output := a_output s; a_contrib := a_contrib s; a_threads := a_threads s; a_debug := a_debug s; a_log := a_log s; a_plot := a_plot s |}
    | Output => inl {| a_payload := a_payload s; a_targets := a_targets s; a_output := Some v; a_contrib := a_contrib s; a_threads := a_threads s; a_debug := a_debug s; a_log := a_log s; a_plot := a_plot s |}
    | Threads => match integer v with
                 | Some n => inl {| a_payload := a_payload s; a_targets := a_targets s; a_output := a_output s; a_contrib := a_contrib s; a_threads := n; a_debug := a_debug s; a_log := a_log s; a_plot := a_plot s |}
                 | None => inr 2
                 end
    | _ => inl s
    end.
  Definition act (av : action * option string) (s : settings) : settings + nat :=
    match snd av with Some v => store (fst av) v s | None => flag (fst av) s end.
  Fixpoint acts (l : list (action * option string)) (s : settings) : settings + nat :=
    match l with [] => inl s | av :: r => match act av s with inl s => acts r s | inr n => inr n end end.
  (** the last option of a word may need the next word *)
  Definition waits (l : list (action * option string)) : bool :=
    match last l (Help, None) with (a, None) => takes_value a | _ => false end.
  Definition give (l : list (action * option string)) (v : string) : list (action * option string) :=
    removelast l ++ [(fst (last l (Help, None)), Some v)].
  (** the loop of _parse_known_args, then the required options and what was not recognized (parse_args) *)
  Definition finish (s : settings) (extras : bool) : outcome :=
    match a_payload s, a_targets s with Some _, Some _ => if extras then Left 2 else Ran s | _, _ => Left 2 end.
  Fixpoint consume (ts : list token) (s : settings) (extras : bool) : outcome :=
    match ts with
    | [] => finish s extras
    | Value _ :: r | Dashes :: r | Unknown :: r => consume r s true
    | Known a long e :: r =>
        match explicit_actions a long e with
        | inl n => Left n
        | inr l =>
            if waits l then
              match r with
              | Value v :: r => match acts (give l v) s with inl s => consume r s extras | inr n => Left n end
              | _ => Left 2
              end
            else match acts l s with inl s => consume r s extras | inr n => Left n end
        end
    end.
  Definition parse_args (words : list string) : outcome :=
    match classify_all words with None => Left 2 | Some ts => consume ts defaults false end.

  (** what standard_pipeline is called with, exorad.py:199-213; log is a bool, replace has its default *)
  Record call := { c_options : string; c_target_list : string; c_output : option string; c_plot : bool; c_full_contrib : bool; c_debug : bool; c_n_thread : Z; c_log : bool; c_replace : bool }.
  Definition main (words : list string) : call + nat :=
    match parse_args words with
    | Left n => inr n
    | Ran s => match a_payload s, a_targets s with
               | Some p, Some t => inl {| c_options := p; c_target_list := t; c_output := a_output s; c_plot := a_plot s; c_full_contrib := a_contrib s; c_debug := a_debug s; c_n_thread := a_threads s; c_log := a_log s; c_replace := true |}
               | _, _ => inr 2
               end
    end.
End Parse.
