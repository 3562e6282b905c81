(** Specification of what a loaded options dictionary must be, written without reference to
    the parsing functions of M_Options (only its data types, the Python built-ins of PyStr,
    and Python's key equality are shared). *)
From Verif Require Import Base PyStr M_Options.

(** The number a text denotes, if it is a Python int or float literal. *)
Inductive number : string -> pyval -> Prop :=
| Num_int s z : py_int s = Some z -> number s (PInt z)
| Num_float s f : py_int s = None -> py_float s = Some f -> number s (PFloat f).
Definition not_number (s : string) : Prop := py_int s = None /\ py_float s = None.

(** the placeholder; the end of a line *)
Definition path_mark : string := "__ConfigPath__".
Definition line_end : string := String (ascii_of_nat 10) "".

Definition unit_name (u : string) : string := if String.eqb u "dimensionless" then "" else u.

Section Spec.
  Variable unit_ok : string -> bool.

  (** [denotes cfg unit s v]: non-blank text [s], under configuration path [cfg] and with
      unit attribute [unit], stands for the value [v]. *)
  Inductive denotes (cfg : option pyval) : option string -> string -> pyval -> Prop :=
  | D_number s n : number s n -> denotes cfg None s n
  | D_quantity s n u : number s n -> (unit_name u = "" \/ unit_ok (unit_name u) = true) ->
      denotes cfg (Some u) s (PQuant n (unit_name u))
  | D_unit_string s u : not_number s -> (unit_name u = "" \/ unit_ok (unit_name u) = true) ->
      unit_ok s = true -> denotes cfg (Some u) s (PUnit s (unit_name u))
  | D_true : denotes cfg None "True" (PBool true)
  | D_false : denotes cfg None "False" (PBool false)
  | D_string s : not_number s -> s <> "True" -> s <> "False" -> contains path_mark s = false ->
      denotes cfg None s (PStr s)
  | D_path s p : not_number s -> s <> "True" -> s <> "False" -> contains path_mark s = true ->
      cfg = Some (PStr p) -> denotes cfg None s (PStr (py_replace path_mark p s)).

  (** text of an element after removal of newlines and surrounding blanks *)
  Definition text_of (x : xml) : option string := option_map (fun t => py_strip (py_replace line_end "" t)) (x_text x).

  (** The path in force after a valued element: the caller's override (if non-empty), else
      the value of the element if it is a ConfigPath. *)
  Definition path_after (ov : option string) (tag : string) (v : pyval) (cfg : option pyval)
    : option pyval :=
    match ov with
    | Some (String _ _ as p) => Some (PStr p)
    | _ => if String.eqb tag "ConfigPath" then Some v else cfg
    end.
  Definition wR_after (tag : string) (v w : pyval) : pyval :=
    if String.eqb tag "working_R" then v else w.

  Definition dict := list (string * node).

  (** [RepElem st ch sub st' key entry]: element [ch], whose children are represented by
      [sub], has dictionary entry [entry]; its key among repeated siblings is [key]. *)
  Definition RepElem (ov : option string) (st : pstate) (ch : xml) (sub : dict)
             (st' : pstate) (key : pyval) (entry : dict) : Prop :=
    exists s, text_of ch = Some s /\
      (s = "" ->
         key = PStr "" /\ st' = st /\
         (forall k, sget k entry = match sget k (rev (x_attrs ch)) with
                                   | Some a => Some (NVal (PStr a)) | None => sget k sub end)) /\
      (s <> "" ->
         (exists unit,
             (match unit with
              | None => sget "unit" (rev (x_attrs ch)) = None /\ sget "unit" sub = None
              | Some u => sget "unit" (rev (x_attrs ch)) = Some u
                          \/ (sget "unit" (rev (x_attrs ch)) = None /\
                              sget "unit" sub = Some (NVal (PStr u)))
              end) /\ denotes (st_cfg st) unit s key) /\
         st_cfg st' = path_after ov (x_tag ch) key (st_cfg st) /\
         st_wR st' = wR_after (x_tag ch) key (st_wR st) /\
         (forall k, sget k entry =
            if String.eqb k "value" then Some (NVal key)
            else match sget k (rev (x_attrs ch)) with
                 | Some a => Some (NVal (PStr a)) | None => sget k sub end)).

  (** The entry of tag [t] given all (tag, key, entry) of the children in document order:
      none, a single dictionary, or an ordered mapping from keys to dictionaries
      ([dof_list] is insertion of the pairs in order, a repeated key being overwritten). *)
  Definition occurrences (t : string) (l : list (string * (pyval * dict)))
    : list (pyval * dict) :=
    map snd (filter (fun x => String.eqb (fst x) t) l).
  Definition grouped (t : string) (l : list (string * (pyval * dict))) : option node :=
    match occurrences t l with
    | [] => None
    | [(_, e)] => Some (NDict e)
    | (_, e) :: rest =>
        match sget "value" e with
        | Some (NVal k) =>
            Some (NODict (dof_list key_eqb
                     ((k, NDict e) :: map (fun ke => (fst ke, NDict (snd ke))) rest)))
        | _ => None
        end
    end.

  (** tags in order of first occurrence *)
  Fixpoint firsts (l : list string) : list string :=
    match l with
    | [] => []
    | t :: l' => t :: filter (fun x => negb (String.eqb x t)) (firsts l')
    end.

  Inductive Rep (ov : option string) : pstate -> xml -> pstate -> dict -> Prop :=
  | Rep_intro st tag att tx chs st' ents d :
      RepSeq ov st chs ents st' ->
      (forall t, sget t d = grouped t (combine (map x_tag chs) ents)) ->
      map fst d = firsts (map x_tag chs) ->
      Rep ov st (Elem tag att tx chs) st' d
  with RepSeq (ov : option string) : pstate -> list xml -> list (pyval * dict) -> pstate -> Prop :=
  | RS_nil st : RepSeq ov st [] [] st
  | RS_cons st ch chs st1 sub st2 key entry ents st3 :
      Rep ov st ch st1 sub ->
      RepElem ov st1 ch sub st2 key entry ->
      RepSeq ov st2 chs ents st3 ->
      RepSeq ov st (ch :: chs) ((key, entry) :: ents) st3.
End Spec.

(** Elements whose presence triggers file reading. *)
Definition file_tags : list string := ["datafile"; "datadict"; "config_dict"].
Fixpoint no_file_tags (x : xml) : bool :=
  let 'Elem _ _ _ chs := x in
  forallb (fun ch => negb (existsb (String.eqb (x_tag ch)) file_tags) && no_file_tags ch) chs.

(** All descendants with non-blank text, children before parents, in document order. *)
Fixpoint valued (x : xml) : list xml :=
  let 'Elem _ _ _ chs := x in
  flat_map (fun ch => valued ch ++
                      match text_of ch with
                      | Some (String _ _) => [ch]
                      | _ => []
                      end) chs.

(** last one with a given tag *)
Definition last_tagged (t : string) (l : list xml) : option xml :=
  find (fun p => String.eqb (x_tag p) t) (rev l).

(** No unit attribute and no child called unit. *)
Definition unit_free (x : xml) : Prop :=
  ~ In "unit" (map fst (x_attrs x)) /\ ~ In "unit" (map x_tag (x_children x)).

(** Some descendant is written without any text, as in <a/>. *)
Fixpoint has_textless (x : xml) : bool :=
  let 'Elem _ _ _ chs := x in
  existsb (fun ch => match x_text ch with None => true | Some _ => false end
                     || has_textless ch) chs.

(** History of a load: the valued elements in processing order, each with the value it
    denotes under the path then in force, and the path / working resolution it leaves. *)
Inductive Trace (unit_ok : string -> bool) (ov : option string)
  : pstate -> list (xml * pyval) -> pstate -> Prop :=
| T_nil st : Trace unit_ok ov st [] st
| T_cons st ch v s tr st' :
    text_of ch = Some s -> s <> "" ->
    (unit_free ch -> denotes unit_ok (st_cfg st) None s v) ->
    Trace unit_ok ov {| st_cfg := path_after ov (x_tag ch) v (st_cfg st);
                        st_wR := wR_after (x_tag ch) v (st_wR st) |} tr st' ->
    Trace unit_ok ov st ((ch, v) :: tr) st'.

(** Documents on which nothing can go wrong: every element has text (possibly blank); a
    valued element has no unit child, its unit attribute (if any) is a known unit and its
    text then is a number, otherwise the text contains no placeholder; among siblings with a
    common tag the first is valued. *)
Definition is_number (s : string) : bool :=
  match py_int s, py_float s with None, None => false | _, _ => true end.
Definition elem_ok (unit_ok : string -> bool) (ch : xml) : bool :=
  match text_of ch with
  | None => false
  | Some "" => true
  | Some s =>
      negb (existsb (String.eqb "unit") (map x_tag (x_children ch))) &&
      match sget "unit" (rev (x_attrs ch)) with
      | Some u => is_number s && (String.eqb (unit_name u) "" || unit_ok (unit_name u))
      | None => is_number s || negb (contains path_mark s)
      end
  end.
Definition is_valued (ch : xml) : bool :=
  match text_of ch with Some (String _ _) => true | _ => false end.
(** every tag occurring again later is valued at its first occurrence *)
Fixpoint firsts_valued (seen : list string) (chs : list xml) : bool :=
  match chs with
  | [] => true
  | ch :: chs' =>
      (existsb (String.eqb (x_tag ch)) seen || is_valued ch
       || negb (existsb (String.eqb (x_tag ch)) (map x_tag chs')))
      && firsts_valued (x_tag ch :: seen) chs'
  end.
Fixpoint wellformed (unit_ok : string -> bool) (x : xml) : bool :=
  let 'Elem _ _ _ chs := x in
  firsts_valued [] chs && forallb (fun ch => elem_ok unit_ok ch && wellformed unit_ok ch) chs.

(** No config_path argument, or an empty one. *)
Definition no_override (ov : option string) : Prop := ov = None \/ ov = Some "".

(** A text that stands for itself. *)
Definition plain (s : string) : Prop :=
  not_number s /\ s <> "True" /\ s <> "False" /\ contains path_mark s = false.
