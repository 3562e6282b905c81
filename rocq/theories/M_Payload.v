(** Model of the payload tasks of exorad/tasks/instrumentHandler.py: GetChannelList (320-370),
    LoadPayload (153-203) and PreparePayload (206-282), of Instrument.load and Instrument.build
    on a loaded instrument (exorad/models/instruments/instrument.py:63-70, 86-99) and of the
    part of observing that reads the processed instrument (instrument.py:343-360,
    exorad/utils/diffuse_light_propagation.py:14-41).  Definitions only.
    Simplifications: numeric values are opaque; a unit is the product of named units, and two
    units can be converted if they have the same dimensions; h5py lists names alphabetically. *)
From Verif Require Import Base PyStr M_Options M_Hdf5.
Open Scope list_scope.

(** ** GetChannelList *)
(** [n[k]] on a parsed node *)
Definition index_node (n : node) (k : string) : res node :=
  match n with
  | NDict d => match sget k d with Some x => Ok x | None => Err KeyError end
  | NODict d => match dget key_eqb (PStr k) d with Some x => Ok x | None => Err KeyError end
  | NVal _ => Err TypeError
  | NData _ => Err KeyError
  end.
(** [n.lower()] *)
Definition lower_of (n : node) : res string :=
  match n with NVal (PStr s) => Ok (py_lower s) | _ => Err AttributeError end.
(** __get_channel_list__, instrumentHandler.py:356-370: the names (keys) of the entries of
    options["channel"] *)
Fixpoint channels_of_type (entries : list (pyval * node)) (ctype : string) : res (list pyval) :=
  match entries with
  | [] => Ok []
  | (name, n) :: l =>
      let* c := index_node n "channelClass" in
      let* v := index_node c "value" in
      let* s := lower_of v in
      let* rest := channels_of_type l ctype in
      Ok (if String.eqb s (py_lower ctype) then name :: rest else rest)
  end.
Definition get_channel_list (options : list (string * node)) (ctype : string) : res (list pyval) :=
  match sget "channel" options with
  | None => Err KeyError
  | Some (NODict d) => channels_of_type d ctype
  | Some (NDict d) => channels_of_type (map (fun kv => (PStr (fst kv), snd kv)) d) ctype
  | Some _ => Err AttributeError
  end.

(** ** Loading *)
Inductive instrument_class := Photometer | Spectrometer.
(** the dictionary [instruments], instrumentHandler.py:10 *)
Definition instruments (name : string) : option instrument_class :=
  if String.eqb name "photometer" then Some Photometer
  else if String.eqb name "spectrometer" then Some Spectrometer
  else None.

Section Load.
  Variable V : Type.
  Variable unit_ok : string -> bool.
  Notation file := (list (string * h5 V)).

  (** An instrument as LoadPayload creates it; [i_loaded] is set by Instrument.load
      (instrument.py:63-70). *)
  Record instrument := {
    i_class : instrument_class;
    i_descr : list (string * lval V);
    i_table : lval V;
    i_built : list (string * lval V);
    i_loaded : bool }.

  (** group[name] where a group is needed next.  Simplified: a dataset found there instead always
      ends in an AttributeError (indexing one is a ValueError in h5py); files written by the code
      have none there. *)
  Definition subgroup (g : file) (name : string) : res file :=
    match sget name g with
    | None => Err KeyError
    | Some (G s) => Ok s
    | Some (D _) => Err AttributeError
    end.
  (** description["channelClass"]["value"].lower().decode("utf-8") and the class of that name
      (instrumentHandler.py:189-191) *)
  Definition class_of (d : list (string * lval V)) : res instrument_class :=
    match sget "channelClass" d with
    | None => Err KeyError
    | Some (LDict c) =>
        match sget "value" c with
        | None => Err KeyError
        | Some (LBytes s) => match instruments (py_lower s) with
                             | Some k => Ok k
                             | None => Err KeyError
                             end
        | Some _ => Err AttributeError
        end
    | Some _ => Err TypeError
    end.
  (** astropy's read_table_hdf5(group, path): rows and header *)
  Definition read_table (g : file) (name : string) : res (lval V) :=
    match sget name g with
    | None => Err OSError
    | Some (D (DV a)) => match sget (name ++ meta_suffix)%string g with
                         | Some (D (DV h)) => Ok (LTab a h)
                         | _ => Ok (LV a)
                         end
    | Some _ => Err OtherError
    end.
  (** one channel, instrumentHandler.py:186-200 *)
  Definition load_channel (dir : file) (ch : string) : res (string * instrument) :=
    let* cd := subgroup dir ch in
    let* dg := subgroup cd "description" in
    let* descr := load unit_ok dg in
    let* cls := class_of descr in
    let* tab := read_table cd ch in
    let* bg := subgroup cd "built_instr" in
    let* built := load unit_ok bg in
    Ok (ch, {| i_class := cls; i_descr := descr; i_table := tab; i_built := built; i_loaded := true |}).
  (** LoadPayload.execute, instrumentHandler.py:181-203 *)
  Definition load_payload (f : file) : res (list (string * lval V) * list (string * instrument)) :=
    let* dir := subgroup f "payload" in
    let* pg := subgroup dir "payload description" in
    let* payload := load unit_ok pg in
    let* chdir := subgroup dir "channels" in
    let* chs := mapM (fun kv => load_channel chdir (fst kv)) (sort_names chdir) in
    Ok (payload, chs).

  (** Instrument.build, instrument.py:92-99: [builder] is the rest *)
  Definition build {X} (i : instrument) (builder : res X) : res X :=
    if i_loaded i then Err ValueError else builder.

  (** ** Observing with a processed instrument *)
  (** dimensions of a named unit (exponents of the base units) *)
  Variable dims : string -> list Z.
  Fixpoint add_dims (a b : list Z) : list Z :=
    match a, b with
    | x :: a', y :: b' => (x + y)%Z :: add_dims a' b'
    | _, _ => []
    end.
  (** a number with the product of units it carries *)
  Record quant := { n_value : V; n_units : list string }.
  Definition quant_dims (q : quant) : list Z :=
    fold_right (fun u d => add_dims (dims u) d) [0; 0; 0; 0; 0; 0; 0]%Z (n_units q).
  (** a[k] on loaded dictionaries *)
  Definition index_lval (x : lval V) (k : string) : res (lval V) :=
    match x with
    | LDict d => match sget k d with Some y => Ok y | None => Err KeyError end
    | LBytes _ => Err TypeError
    | _ => Err IndexError
    end.
  (** entry["value"] * u.Unit(entry["unit"]), instrument.py:350-351,357-358 and
      diffuse_light_propagation.py:31-32,38-39 *)
  Definition times_own_unit (e : lval V) : res quant :=
    let* v := index_lval e "value" in
    let* u := index_lval e "unit" in
    match u with
    | LBytes u =>
        if unit_ok u then
          match v with
          | LV x => Ok {| n_value := x; n_units := [u] |}
          | LQuant x w => Ok {| n_value := x; n_units := [w; u] |}
          | _ => Err TypeError
          end
        else Err ValueError
    | _ => Err TypeError
    end.
  (** Signal.check_quantities(q, "um"), signal.py:79-125 *)
  Definition as_microns (q : quant) : res V :=
    if list_eq_dec Z.eq_dec (quant_dims q) (dims "um") then Ok (n_value q) else Err UnitConversionError.
  (** Signal(x["wl_grid"]["value"] * u.Unit(x["wl_grid"]["unit"]), x["data"]["value"]); what the
      constructor does with the data is [check] *)
  Definition stored_signal (check : V -> lval V -> res unit) (built : list (string * lval V)) (name : string)
    : res (V * lval V) :=
    let* s := index_lval (LDict built) name in
    let* w := index_lval s "wl_grid" in
    let* q := times_own_unit w in
    let* d := index_lval s "data" in
    let* x := index_lval d "value" in
    let* wl := as_microns q in
    let* _ := check wl x in
    Ok (wl, x).
  (** propagate_target of both classes starts with _get_efficiency (photometer.py:134-137,
      spectrometer.py:326-329, instrument.py:343-360); [rest] is what follows *)
  Definition propagate_target {X} (check : V -> lval V -> res unit) (i : instrument)
             (rebin : V * lval V -> res unit) (rest : V * lval V -> V * lval V -> res X) : res X :=
    let* qe := stored_signal check (i_built i) "qe_data" in
    let* _ := rebin qe in
    let* tr := stored_signal check (i_built i) "transmission_data" in
    rest qe tr.
  (** propagate_diffuse_foreground starts with prepare (instrument.py:177-186,
      diffuse_light_propagation.py:14-41); [optics] stands for the table, the focal ratios and
      the pixel area it reads first *)
  Definition propagate_foreground {X} (check : V -> lval V -> res unit) (i : instrument)
             (optics : res unit) (rest : V * lval V -> V * lval V -> res X) : res X :=
    let* _ := optics in
    let* qe := stored_signal check (i_built i) "qe_data" in
    let* tr := stored_signal check (i_built i) "transmission_data" in
    rest qe tr.
End Load.
Arguments i_class {V}. Arguments i_descr {V}. Arguments i_table {V}. Arguments i_built {V}. Arguments i_loaded {V}.
Arguments subgroup {V}. Arguments class_of {V}. Arguments read_table {V}. Arguments load_channel {V}.
Arguments load_payload {V}. Arguments build {V X}. Arguments index_lval {V}. Arguments times_own_unit {V}.
Arguments as_microns {V}. Arguments stored_signal {V}. Arguments propagate_target {V} _ _ {X}.
Arguments propagate_foreground {V} _ _ {X}. Arguments n_value {V}. Arguments n_units {V}. Arguments quant_dims {V}.

(** ** PreparePayload *)
(** The argument: a path, a dictionary (the payload itself) or something else. *)
Inductive payload_arg (P : Type) := Path (s : string) | Mapping (p : P) | Other.
Arguments Path {P}. Arguments Mapping {P}. Arguments Other {P}.

(** What happens, in order: the outside world is a state [W] (files, built channels). *)
Section Prepare.
  Variables (W P C R : Type).
  (** LoadOptions, BuildChannels into a file opened with append or not (or without file),
      LoadPayload, and payload["common"][...]["value"]: each may fail, keeping what it did. *)
  Variable load_options : string -> W -> W * res P.
  Variable build_into : string -> bool -> P -> W -> W * res C.
  Variable build_only : P -> W -> W * res C.
  Variable load_file : string -> W -> W * res (P * C).
  Variable is_file : string -> W -> bool.
  Variable range_of : P -> res R.

  Definition seq {A B} (a : W * res A) (f : A -> W -> W * res B) : W * res B :=
    match a with (w, Ok x) => f x w | (w, Err e) => (w, Err e) end.
  (** instrumentHandler.py:239-282 *)
  Definition prepare_payload (arg : payload_arg P) (output : option string) (w : W)
    : W * res (P * C * R) :=
    let ext := match arg with Path s => Some (splitext s) | _ => None end in
    let is_xml := match ext with Some e => String.eqb e ".xml" | None => false end in
    let is_h5 := match ext with Some e => String.eqb e ".h5" || String.eqb e ".hdf5" | None => false end in
    let built (p : P) (w : W) :=
      seq (match output with
           | Some o => build_into o (is_file o w) p w
           | None => build_only p w
           end) (fun c w => (w, Ok (p, c))) in
    let got :=
      match arg with
      | Path s => if is_xml then seq (load_options s w) built
                  else if is_h5 then load_file s w
                  else (w, Err OSError)
      | Mapping p => built p w
      | Other => (w, Err OSError)
      end in
    seq got (fun pc w => match range_of (fst pc) with
                         | Ok r => (w, Ok (fst pc, snd pc, r))
                         | Err e => (w, Err e)
                         end).
End Prepare.
Arguments prepare_payload {W P C R}. Arguments seq {W A B}.
