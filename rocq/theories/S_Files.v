(** Specification of what the elements datafile, datadict and config_dict of an options
    document must do.  Only the data types of M_Options, Python's key equality, the Python
    built-ins of PyStr and the vocabulary of S_Options are used. *)
From Verif Require Import Base PyStr M_Options S_Options.

(** [x] itself or one of its descendants *)
Inductive within : xml -> xml -> Prop :=
| Within_self x : within x x
| Within_child x c y : In c (x_children x) -> within c y -> within x y.

(** [n["value"]] *)
Definition value_of (n : node) : option node :=
  match n with
  | NDict e => sget "value" e
  | NODict l => dget key_eqb (PStr "value") l
  | _ => None
  end.

(** the entry of [tag] has the string [f] as its value *)
Definition names_file (d : dict) (tag f : string) : Prop :=
  exists n, sget tag d = Some n /\ value_of n = Some (NVal (PStr f)).

(** no datatype, one without a value, or "ecsv" *)
Definition ecsv (d : dict) : Prop :=
  forall n v, sget "datatype" d = Some n -> value_of n = Some v -> v = NVal (PStr "ecsv").

(** [d'] is [d] with [v] stored under [k], at the end when [k] is new *)
Definition put (k : string) (v : node) (d d' : dict) : Prop :=
  (forall m, sget m d' = if String.eqb m k then Some v else sget m d) /\
  (In k (map fst d) -> map fst d' = map fst d) /\
  (~ In k (map fst d) -> map fst d' = map fst d ++ [k]).

(** the file meant by [f]: a placeholder needs a path in force *)
Definition located (cfg : option pyval) (f g : string) : Prop :=
  (contains path_mark f = false /\ g = f) \/
  (exists p, contains path_mark f = true /\ cfg = Some (PStr p) /\ g = py_replace path_mark p f).

Section Files.
  Variable unit_ok : string -> bool.
  Variable read_table : string -> res nat.
  Variable read_pickle : string -> res dict.

  (** the contents [c] of the dictionary file called [f]: a path must be in force even when
      [f] has no placeholder, and only pickle files are ever read *)
  Definition unpickled (cfg : option pyval) (f g : string) (c : dict) : Prop :=
    exists p, cfg = Some (PStr p) /\ g = py_replace path_mark p f /\
              splitext g = ".pickle" /\ read_pickle g = Ok c.

  (** datafile: the table is stored under "data" *)
  Definition has_table (cfg : option pyval) (d d' : dict) : Prop :=
    (sget "datafile" d = None /\ d' = d) \/
    (exists f g i, names_file d "datafile" f /\ located cfg f g /\ ecsv d /\
                   read_table g = Ok i /\ put "data" (NData i) d d').
  (** datadict: the dictionary is stored under "data" (over a table) *)
  Definition has_dict (cfg : option pyval) (d d' : dict) : Prop :=
    (sget "datadict" d = None /\ d' = d) \/
    (exists f g c, names_file d "datadict" f /\ unpickled cfg f g c /\ put "data" (NDict c) d d').
  (** config_dict: the dictionary replaces everything; the file name is recorded in it *)
  Definition has_config (cfg : option pyval) (d d' : dict) : Prop :=
    (sget "config_dict" d = None /\ d' = d) \/
    (exists f g c, names_file d "config_dict" f /\ unpickled cfg f g c /\
                   put "config_dict" (NVal (PStr g)) c d').

  (** from the entries of the children [d0] to the finished dictionary [d] *)
  Definition attached (cfg : option pyval) (d0 d : dict) : Prop :=
    exists d1 d2, has_table cfg d0 d1 /\ has_dict cfg d1 d2 /\ has_config cfg d2 d.

  (** [Rep] of S_Options with the files attached at every level *)
  Inductive RepF (ov : option string) : pstate -> xml -> pstate -> dict -> Prop :=
  | RepF_intro st tag att tx chs st' ents d0 d :
      RepSeqF ov st chs ents st' ->
      (forall t, sget t d0 = grouped t (combine (map x_tag chs) ents)) ->
      map fst d0 = firsts (map x_tag chs) ->
      attached (st_cfg st') d0 d ->
      RepF ov st (Elem tag att tx chs) st' d
  with RepSeqF (ov : option string) : pstate -> list xml -> list (pyval * dict) -> pstate -> Prop :=
  | RSF_nil st : RepSeqF ov st [] [] st
  | RSF_cons st ch chs st1 sub st2 key entry ents st3 :
      RepF ov st ch st1 sub ->
      RepElem unit_ok ov st1 ch sub st2 key entry ->
      RepSeqF ov st2 chs ents st3 ->
      RepSeqF ov st (ch :: chs) ((key, entry) :: ents) st3.

  (** ** Documents whose files can all be read *)

  (** the path [p] is in force throughout *)
  Definition steady (ov : option string) (p : string) (x : xml) : Prop :=
    (ov = Some p /\ p <> "") \/
    (no_override ov /\ forall y c, within x y -> In c (x_children y) -> x_tag c <> "ConfigPath").

  (** an element that can be read: it has text; a value has no unit child, and with a unit
      attribute it is a number in a known unit *)
  Definition readable_elem (ch : xml) : Prop :=
    exists s, text_of ch = Some s /\
      (s <> "" -> ~ In "unit" (map x_tag (x_children ch)) /\
         forall u, sget "unit" (rev (x_attrs ch)) = Some u ->
           is_number s = true /\ (unit_name u = "" \/ unit_ok (unit_name u) = true)).

  (** at most one of [chs] is called [tag], and it has as text the string [s] with [P s] *)
  Definition only (tag : string) (P : string -> Prop) (chs : list xml) : Prop :=
    (length (filter (fun c => String.eqb (x_tag c) tag) chs) <= 1)%nat /\
    forall c, In c chs -> x_tag c = tag ->
      unit_free c /\
      exists s, text_of c = Some s /\ s <> "" /\ not_number s /\ s <> "True" /\ s <> "False" /\ P s.

  (** the path is substituted when the value is read, and again when the file is opened *)
  Definition resolve (p s : string) : string := py_replace path_mark p (py_replace path_mark p s).

  Definition readable_level (p : string) (chs : list xml) : Prop :=
    only "datafile" (fun s => exists i, read_table (resolve p s) = Ok i) chs /\
    only "datadict" (fun s => splitext (resolve p s) = ".pickle" /\
                              exists c, read_pickle (resolve p s) = Ok c) chs /\
    only "config_dict" (fun s => splitext (resolve p s) = ".pickle" /\
                              exists c, read_pickle (resolve p s) = Ok c /\ sget "unit" c = None) chs /\
    only "datatype" (fun s => s = "ecsv") chs.

  Definition readable (p : string) (x : xml) : Prop :=
    forall y, within x y ->
      firsts_valued [] (x_children y) = true /\
      (forall c, In c (x_children y) -> readable_elem c) /\
      readable_level p (x_children y).
End Files.

(** no element below [x] is called [tag] *)
Definition lacks (tag : string) (x : xml) : Prop :=
  forall y c, within x y -> In c (x_children y) -> x_tag c <> tag.
