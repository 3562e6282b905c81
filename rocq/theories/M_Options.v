(** Model of exorad/tasks/loadOptions.py (LoadOptions) and exorad/utils/passVal.py.
    Definitions only. *)
From Verif Require Import Base PyStr.
Open Scope list_scope.

(** An XML element as delivered by xml.etree.ElementTree: tag, attributes, the text before
    the first child (None when there is none), children.  Comments are not elements. *)
Inductive xml := Elem (tag : string) (attrs : sdict string) (text : option string)
                      (children : list xml).
Definition x_tag (x : xml) := let 'Elem t _ _ _ := x in t.
Definition x_attrs (x : xml) := let 'Elem _ a _ _ := x in a.
Definition x_text (x : xml) := let 'Elem _ _ t _ := x in t.
Definition x_children (x : xml) := let 'Elem _ _ _ c := x in c.

(** Scalar Python values produced by the parser.  [PQuant n u]: number [n] times the unit
    called [u]; [PUnit s u]: what [str * Unit] gives (Unit(s)*Unit(u)). *)
Inductive pyval :=
| PInt (z : Z) | PFloat (f : fl) | PBool (b : bool) | PStr (s : string)
| PQuant (n : pyval) (u : string) | PUnit (s u : string).

(** Nodes of the returned dictionary.  [NData i]: a table read from a file (opaque handle). *)
Inductive node :=
| NVal (v : pyval)
| NDict (d : list (string * node))
| NODict (d : list (pyval * node))
| NData (i : nat).

(** Python [==] between dictionary keys: int, float and bool compare by value. *)
Definition num_of (v : pyval) : option fl :=
  match v with
  | PInt z => Some (FQ (inject_Z z))
  | PFloat f => Some f
  | PBool b => Some (FQ (if b then 1 else 0)%Q)
  | _ => None
  end.
Definition key_eqb (a b : pyval) : bool :=
  match num_of a, num_of b with
  | Some x, Some y => fl_eqb x y
  | None, None =>
      match a, b with
      | PStr s, PStr t => String.eqb s t
      | PQuant n u, PQuant m v =>
          String.eqb u v && match num_of n, num_of m with
                            | Some x, Some y => fl_eqb x y | _, _ => false end
      | PUnit s u, PUnit t v => String.eqb s t && String.eqb u v
      | _, _ => false
      end
  | _, _ => false
  end.

(** State that survives a call: [configPath] on the instance (loadOptions.py:55) and the
    process-wide working resolution (passVal.py:25-41, initially 6000). *)
Record pstate := { st_cfg : option pyval; st_wR : pyval }.
Definition pstate0 : pstate := {| st_cfg := None; st_wR := PInt 6000 |}.

Definition marker : string := "__ConfigPath__".
Definition newline : string := String (ascii_of_nat 10) "".

(** compactString, loadOptions.py:12. *)
Definition compact (s : string) : string := py_strip (py_replace newline "" s).

Section Parser.
  (** External behaviour: which unit names [u.Unit] accepts; reading of table files and of
      pickled dictionaries. *)
  Variable unit_ok : string -> bool.
  Variable read_table : string -> res nat.
  Variable read_pickle : string -> res (list (string * node)).

  (** value*u.Unit(unitName), loadOptions.py:90-93.  A number gives a quantity; a string
      operand is itself parsed as a unit by astropy. *)
  Definition times_unit (v : pyval) (uname : string) : res pyval :=
    let uname := if String.eqb uname "dimensionless" then "" else uname in
    if negb (String.eqb uname "" || unit_ok uname) then Err ValueError
    else match v with
         | PStr s => if unit_ok s then Ok (PUnit s uname) else Err ValueError
         | _ => Ok (PQuant v uname)
         end.

  (** int -> float -> str, loadOptions.py:81-88. *)
  Definition parse_scalar (s : string) : pyval :=
    match py_int s with
    | Some z => PInt z
    | None =>
        if String.eqb (py_replace "." "" s) "" then PStr s
        else match py_float s with Some f => PFloat f | None => PStr s end
    end.

  (** Everything done to a non-blank text, loadOptions.py:81-102: typing, unit,
      True/False, placeholder.  [unit_entry] is [retval.get("unit")]. *)
  Definition typed_value (cfg : option pyval) (unit_entry : option node) (s : string)
    : res pyval :=
    let v := parse_scalar s in
    let* v := match unit_entry with
              | None => Ok v
              | Some (NVal (PStr u)) => times_unit v u
              | Some _ => Err TypeError
              end in
    match v with
    | PStr s =>
        if String.eqb s "True" then Ok (PBool true)
        else if String.eqb s "False" then Ok (PBool false)
        else if contains marker s then
               match cfg with
               | Some (PStr p) => Ok (PStr (py_replace marker p s))
               | _ => Err TypeError
               end
             else Ok v
    | _ => Ok v
    end.

  (** Updates of configPath and working_R after a valued element, loadOptions.py:103-108.
      [ov] is the config_path argument; only a non-empty one counts. *)
  Definition after_value (ov : option string) (tag : string) (v : pyval) (st : pstate) : pstate :=
    let cfg := if String.eqb tag "ConfigPath" then Some v else st_cfg st in
    let cfg := match ov with
               | Some p => if String.eqb p "" then cfg else Some (PStr p)
               | None => cfg end in
    let w := if String.eqb tag "working_R" then v else st_wR st in
    {| st_cfg := cfg; st_wR := w |}.

  (** Attributes copied over the children entries, loadOptions.py:75-77. *)
  Definition add_attrs (retval : list (string * node)) (attrs : sdict string) :=
    fold_left (fun d ka => sset (fst ka) (NVal (PStr (snd ka))) d) attrs retval.

  (** Registration of an element in its parent's dictionary, loadOptions.py:115-128.
      [value] is the typed value, or the empty string for blank text. *)
  Definition register (rd : list (string * node)) (tag : string) (value : pyval)
             (retval : list (string * node)) : res (list (string * node)) :=
    match sget tag rd with
    | None => Ok (sset tag (NDict retval) rd)
    | Some (NODict d) => Ok (sset tag (NODict (dset key_eqb value (NDict retval) d)) rd)
    | Some (NDict a) =>
        match sget "value" a with
        | None => Err KeyError
        | Some (NVal v0) =>
            Ok (sset tag (NODict (dof_list key_eqb [(v0, NDict a); (value, NDict retval)])) rd)
        | Some _ => Err TypeError        (* unhashable key *)
        end
    | Some (NVal (PStr _)) => Ok rd      (* [isinstance(attr, str)]: ignored *)
    | Some _ => Err TypeError
    end.

  (** One child, after its own children have been parsed into [retval]: its typed value
      (the empty string for blank text) and its completed entry (loadOptions.py:75-113). *)
  Definition read_elem (ov : option string) (st : pstate) (ch : xml)
             (retval : list (string * node)) : pstate * res (pyval * list (string * node)) :=
    let retval := add_attrs retval (x_attrs ch) in
    match x_text ch with
    | None => (st, Err AttributeError)
    | Some t =>
        let s := compact t in
        if String.eqb s "" then (st, Ok (PStr "", retval))
        else match typed_value (st_cfg st) (sget "unit" retval) s with
             | Err e => (st, Err e)
             | Ok v => (after_value ov (x_tag ch) v st, Ok (v, sset "value" (NVal v) retval))
             end
    end.

  (** loadOptions.py:75-128: read the element, then register it. *)
  Definition absorb (ov : option string) (st : pstate) (ch : xml)
             (retval rd : list (string * node)) : pstate * res (list (string * node)) :=
    match read_elem ov st ch retval with
    | (st', Err e) => (st', Err e)
    | (st', Ok (v, entry)) => (st', register rd (x_tag ch) v entry)
    end.

  (** datafile / datadict / config_dict, loadOptions.py:130-179.
      [as_entry] is [root_dict[k]["value"]]. *)
  Definition entry_value (n : node) : res node :=
    match n with
    | NDict d => match sget "value" d with Some v => Ok v | None => Err KeyError end
    | NODict d => match dget key_eqb (PStr "value") d with Some v => Ok v | None => Err KeyError end
    | NVal _ => Err TypeError
    | NData _ => Err KeyError
    end.

  (** datatype, loadOptions.py:131-135: anything going wrong means "ecsv". *)
  Definition datatype_of (rd : list (string * node)) : node :=
    match sget "datatype" rd with
    | Some n => match entry_value n with Ok v => v | Err _ => NVal (PStr "ecsv") end
    | None => NVal (PStr "ecsv")
    end.

  (** loadOptions.py:130-150 and 186-205 *)
  Definition do_datafile (cfg : option pyval) (rd : list (string * node))
    : res (list (string * node)) :=
    match sget "datafile" rd with
    | None => Ok rd
    | Some n =>
        let* v := entry_value n in
        match v with
        | NVal (PStr f) =>
            let* f := (if contains marker f then
                         match cfg with
                         | Some (PStr p) => Ok (py_replace marker p f)
                         | _ => Err TypeError
                         end
                       else Ok f) in
            match datatype_of rd with
            | NVal (PStr dt) =>
                if String.eqb dt "ecsv" then
                  let* i := read_table f in Ok (sset "data" (NData i) rd)
                else Err OSError
            | _ => Err OSError
            end
        | _ => Err TypeError
        end
    end.

  (** the file name of datadict / config_dict: [value.replace(marker, self.configPath)]
      fails unless configPath is a string, even without a placeholder
      (loadOptions.py:155-157, 167-169). *)
  Definition dict_file_name (cfg : option pyval) (n : node) : res string :=
    let* v := entry_value n in
    match v with
    | NVal (PStr f) =>
        match cfg with
        | Some (PStr p) => Ok (py_replace marker p f)
        | _ => Err TypeError
        end
    | _ => Err AttributeError
    end.

  (** __read_datadict__, loadOptions.py:207-223.  For .h5/.hdf5 the code hands the file
      *name* to [load], which calls [.items()] on it: AttributeError. *)
  Definition read_datadict (f : string) : res (list (string * node)) :=
    let ext := splitext f in
    if String.eqb ext ".h5" || String.eqb ext ".hdf5" then Err AttributeError
    else if String.eqb ext ".pickle" then read_pickle f
    else Err OSError.

  Definition do_datadict (cfg : option pyval) (rd : list (string * node)) :=
    match sget "datadict" rd with
    | None => Ok rd
    | Some n => let* f := dict_file_name cfg n in
                let* d := read_datadict f in
                Ok (sset "data" (NDict d) rd)
    end.

  Definition do_config_dict (cfg : option pyval) (rd : list (string * node)) :=
    match sget "config_dict" rd with
    | None => Ok rd
    | Some n => let* f := dict_file_name cfg n in
                let* d := read_datadict f in
                Ok (sset "config_dict" (NVal (PStr f)) d)
    end.

  Definition finish (cfg : option pyval) (rd : list (string * node)) :=
    let* rd := do_datafile cfg rd in
    let* rd := do_datadict cfg rd in
    do_config_dict cfg rd.

  (** __parser__, loadOptions.py:70-181. *)
  Fixpoint parse (ov : option string) (st : pstate) (root : xml) {struct root}
    : pstate * res (list (string * node)) :=
    let 'Elem _ _ _ chs := root in
    (fix loop (st : pstate) (chs : list xml) (rd : list (string * node)) {struct chs} :=
       match chs with
       | [] => (st, finish (st_cfg st) rd)
       | ch :: chs' =>
           match parse ov st ch with
           | (st1, Err e) => (st1, Err e)
           | (st1, Ok retval) =>
               match absorb ov st1 ch retval rd with
               | (st2, Err e) => (st2, Err e)
               | (st2, Ok rd') => loop st2 chs' rd'
               end
           end
       end) st chs [].

  (** the same loop, by name *)
  Fixpoint parse_loop (ov : option string) (st : pstate) (chs : list xml)
           (rd : list (string * node)) : pstate * res (list (string * node)) :=
    match chs with
    | [] => (st, finish (st_cfg st) rd)
    | ch :: chs' =>
        match parse ov st ch with
        | (st1, Err e) => (st1, Err e)
        | (st1, Ok retval) =>
            match absorb ov st1 ch retval rd with
            | (st2, Err e) => (st2, Err e)
            | (st2, Ok rd') => parse_loop ov st2 chs' rd'
            end
        end
    end.

  Variable read_xml : string -> res xml.

  (** execute, loadOptions.py:46-68: format check, file reading (OSError re-raised),
      parsing.  Parameters are those of the task call. *)
  Definition load_options (st : pstate) (filename : string) (config_path : option string)
    : pstate * res (list (string * node)) :=
    if negb (ends_with ".xml" filename) then (st, Err OSError)
    else match read_xml filename with
         | Err e => (st, Err e)
         | Ok root => parse config_path st root
         end.
End Parser.
