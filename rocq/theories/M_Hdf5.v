(** Model of exorad/output/hdf5/util.py, exorad/output/hdf5/hdf5.py and the dictionary part of
    exorad/output/output.py: storing nested dictionaries in an HDF5 file and loading them.
    Definitions only.
    Simplifications: dataset values are opaque ([V]); names containing '/' (which h5py would
    turn into nested groups) and HDF5 attributes are not modelled; keys are strings, i.e.
    [str(key)] has already been applied; the truncation of array strings to 64 bytes
    (hdf5.py:132) is not modelled. *)
From Verif Require Import Base PyStr.
From Coq Require DecimalString.
Open Scope list_scope.

Section Hdf5.
  Variable V : Type.

  (** An astropy table: the structured array, the yaml header, and per column the values and
      the unit name if any. *)
  Record table := { tb_array : V; tb_header : V; tb_cols : list (string * (V * option string)) }.

  (** Python values by the branch of store_thing (util.py:118-169) they take. [IList conv l]:
      a list or tuple without strings, [conv] being the outcome of np.array(l).  [IBad]:
      anything else (None, bytes, numpy float32...). *)
  Inductive item :=
  | INum (v : V)
  | IArr (v : V)
  | IStr (s : string)
  | IQuant (v : V) (u : string)
  | IStrArr (l : list string)
  | ITab (t : table)
  | IList (conv : res V) (l : list item)
  | ISignal (d : list (string * item))
  | IDict (d : list (string * item))
  | IBad.

  (** Datasets and groups of a file. *)
  Inductive dval := DV (v : V) | DS (s : string) | DSA (l : list string).
  Inductive h5 := D (d : dval) | G (ents : list (string * h5)).

  (** [create_dataset] on a group: an existing name is an error (ValueError). *)
  Definition create_dataset (g : list (string * h5)) (name : string) (d : dval)
    : list (string * h5) * res unit :=
    match sget name g with
    | Some _ => (g, Err ValueError)
    | None => (g ++ [(name, D d)], Ok tt)
    end.

  (** sequencing of operations that keep their partial effects when failing *)
  Definition then_ {S A} (a : S * res unit) (f : S -> S * res A) : S * res A :=
    match a with
    | (s, Ok _) => f s
    | (s, Err e) => (s, Err e)
    end.

  (** write_quantity, hdf5.py:139-152: under the name "value" only the number is stored;
      otherwise a *new* group (an existing name is an error). *)
  Definition write_quantity (g : list (string * h5)) (name : string) (v : V) (u : string)
    : list (string * h5) * res unit :=
    if String.eqb name "value" then create_dataset g "value" (DV v)
    else match sget name g with
         | Some _ => (g, Err ValueError)
         | None => (g ++ [(name, G [("value", D (DV v)); ("unit", D (DS u))])], Ok tt)
         end.

  Definition meta_suffix : string := ".__table_column_meta__".
  (** columns of write_table, hdf5.py:101-106 *)
  Definition col_group (c : string * (V * option string)) : string * h5 :=
    let '(n, (v, u)) := c in
    (n, G (("value", D (DV v)) :: match u with Some s => [("unit", D (DS s))] | None => [] end)).
  (** write_table, hdf5.py:87-106 (the table has distinct column names) *)
  Definition write_table (g : list (string * h5)) (name : string) (t : table)
    : list (string * h5) * res unit :=
    then_ (create_dataset g name (DV (tb_array t))) (fun g =>
    then_ (create_dataset g (name ++ meta_suffix)%string (DV (tb_header t))) (fun g =>
    let gn := (name ++ "_to_group")%string in
    match sget gn g with
    | Some _ => (g, Err ValueError)
    | None => (g ++ [(gn, G (map col_group (tb_cols t)))], Ok tt)
    end)).

  (** [store_thing] when the "group" obtained from create_group is in fact a dataset
      (hdf5.py:120-127 falls back to the existing object): nothing can be created in it. *)
  Fixpoint err_on_dataset (it : item) : exn :=
    match it with
    | IBad => ValueError
    | IList (Err TypeError) (i :: _) => err_on_dataset i
    | IList (Err TypeError) [] => AttributeError
    | IList (Err e) _ => e
    | _ => AttributeError
    end.

  Definition name_idx (key : string) (i : nat) : string :=
    (key ++ DecimalString.NilZero.string_of_uint (Nat.to_uint i))%string.

  (** store_thing, util.py:118-169, and recursively_save_dict_contents_to_output,
      util.py:96-115 (a TypeError becomes a ValueError). *)
  Fixpoint store_thing (g : list (string * h5)) (key : string) (it : item) {struct it}
    : list (string * h5) * res unit :=
    let save_dict :=
      fix save_dict (g : list (string * h5)) (d : list (string * item)) {struct d} :=
        match d with
        | [] => (g, Ok tt)
        | (k, i) :: d' =>
            match store_thing g k i with
            | (g', Ok _) => save_dict g' d'
            | (g', Err TypeError) => (g', Err ValueError)
            | (g', Err e) => (g', Err e)
            end
        end in
    let into_group (d : list (string * item)) :=
        match sget key g with
        | None => let '(sub, r) := save_dict [] d in (g ++ [(key, G sub)], r)
        | Some (G sub0) => let '(sub, r) := save_dict sub0 d in (sset key (G sub) g, r)
        | Some (D _) => match d with
                        | [] => (g, Ok tt)
                        | (_, i) :: _ => (g, Err (err_on_dataset i))
                        end
        end in
    match it with
    | IQuant v u => write_quantity g key v u
    | INum v => create_dataset g key (DV v)
    | IArr v => create_dataset g key (DV v)
    | IStr s => create_dataset g key (DS s)
    | IStrArr l => create_dataset g key (DSA l)
    | ITab t => write_table g key t
    | ISignal d => into_group d
    | IDict d => into_group d
    | IList (Ok v) _ => create_dataset g key (DV v)
    | IList (Err TypeError) l =>
        (fix go (g : list (string * h5)) (n : nat) (l : list item) {struct l} :=
           match l with
           | [] => (g, Ok tt)
           | i :: l' => match store_thing g (name_idx key n) i with
                        | (g', Ok _) => go g' (S n) l'
                        | (g', Err e) => (g', Err e)
                        end
           end) g 0 l
    | IList (Err e) _ => (g, Err e)
    | IBad => (g, Err TypeError)
    end.

  Fixpoint save_dict (g : list (string * h5)) (d : list (string * item))
    : list (string * h5) * res unit :=
    match d with
    | [] => (g, Ok tt)
    | (k, i) :: d' =>
        match store_thing g k i with
        | (g', Ok _) => save_dict g' d'
        | (g', Err TypeError) => (g', Err ValueError)
        | (g', Err e) => (g', Err e)
        end
    end.

  (** output.store_dictionary(d, group_name), output.py:76-85 *)
  Definition store_dictionary (g : list (string * h5)) (d : list (string * item))
             (group_name : option string) : list (string * h5) * res unit :=
    match group_name with
    | None => save_dict g d
    | Some n =>
        match sget n g with
        | None => let '(sub, r) := save_dict [] d in (g ++ [(n, G sub)], r)
        | Some (G sub0) => let '(sub, r) := save_dict sub0 d in (sset n (G sub) g, r)
        | Some (D _) => match d with
                        | [] => (g, Ok tt)
                        | (_, i) :: _ => (g, Err (err_on_dataset i))
                        end
        end
    end.

  (** ** Reading *)
  Inductive lval :=
  | LV (v : V)                     (* numbers and arrays *)
  | LBytes (s : string)            (* a string comes back as bytes *)
  | LBytesArr (l : list string)
  | LQuant (v : V) (u : string)
  | LUnit (s u : string)
  | LTab (array header : V)        (* the table rebuilt from its two datasets *)
  | LDict (d : list (string * lval)).

  (** names in increasing order, as h5py delivers them *)
  Fixpoint insert_sorted {A} (x : string * A) (l : list (string * A)) : list (string * A) :=
    match l with
    | [] => [x]
    | y :: l' => if String.leb (fst x) (fst y) then x :: l else y :: insert_sorted x l'
    end.
  Definition sort_names {A} (l : list (string * A)) : list (string * A) :=
    fold_right insert_sorted [] l.

  (** hdf5_group_to_dict, hdf5/util.py:51-73 *)
  Fixpoint read_h5 (x : h5) : lval :=
    match x with
    | D (DV v) => LV v
    | D (DS s) => LBytes s
    | D (DSA l) => LBytesArr l
    | G ents => LDict (sort_names (map (fun kv => (fst kv, read_h5 (snd kv))) ents))
    end.

  Variable unit_ok : string -> bool.

  (** input_dict["value"] * u.Unit(input_dict["unit"]), hdf5/util.py:36.  Only textual units
      are modelled. *)
  Definition times (lv ub : lval) : res lval :=
    match ub with
    | LBytes u =>
        if unit_ok u then
          match lv with
          | LV v => Ok (LQuant v u)
          | LBytes s => if unit_ok s then Ok (LUnit s u) else Err ValueError
          | _ => Err TypeError
          end
        else Err ValueError
    | _ => Err OtherError
    end.

  Definition with_unit (d : list (string * lval)) : res (list (string * lval)) :=
    match sget "value" d, sget "unit" d with
    | Some lv, Some ub => let* q := times lv ub in Ok (sset "value" q d)
    | _, _ => Ok d
    end.

  (** the tables of a group, hdf5/util.py:38-45: the name is what precedes the first dot *)
  Definition load_table (d : list (string * lval)) (k : string) : res lval :=
    match sget k d with
    | None => Err KeyError
    | Some (LV a) =>
        match sget (k ++ meta_suffix)%string d with
        | None => Err KeyError
        | Some (LV h) => Ok (LTab a h)
        | Some _ => Err OtherError
        end
    | Some _ => Err OtherError
    end.
  Fixpoint load_tables (names : list string) (d : list (string * lval))
    : res (list (string * lval)) :=
    match names with
    | [] => Ok d
    | n :: ns =>
        if contains meta_suffix n then
          let k := match py_split "."%char n with w :: _ => w | [] => "" end in
          let* t := load_table d k in load_tables ns (sset k t d)
        else load_tables ns d
    end.

  (** recursively_read_dict_contents, hdf5/util.py:14-49; [n] bounds the nesting depth *)
  Fixpoint read_dict (n : nat) (d : list (string * lval)) : res (list (string * lval)) :=
    match n with
    | O => Err OtherError
    | S n' =>
        let names := map fst d in
        let* d := with_unit d in
        let* d := load_tables names d in
        mapM (fun kv => match snd kv with
                        | LDict sub => let* s := read_dict n' sub in Ok (fst kv, LDict s)
                        | v => Ok (fst kv, v)
                        end) d
    end.

  Fixpoint depth (x : lval) : nat :=
    match x with
    | LDict d => S (fold_right Nat.max 0 (map (fun kv => depth (snd kv)) d))
    | _ => 0
    end.

  (** load(group), hdf5.py:247-264 *)
  Definition load (g : list (string * h5)) : res (list (string * lval)) :=
    match read_h5 (G g) with
    | LDict d => read_dict (depth (LDict d)) d
    | _ => Err OtherError
    end.

  (** ** Files *)
  (** _openFile, hdf5.py:192-225: mode "w" truncates, "a" keeps; the info group is written
      when the file is new or has none. [info] is the dictionary of strings written there.
      (File attributes, rewritten at each opening, are not modelled.) *)
  Definition open_file (prev : option (list (string * h5))) (append : bool)
             (info : list (string * string)) : list (string * h5) * res unit :=
    let base := match prev with Some f => if append then f else [] | None => [] end in
    if negb append || negb (smem "info" base) then
      match sget "info" base with
      | None =>
          let '(sub, r) := store_dictionary [] (map (fun kv => (fst kv, IStr (snd kv))) info)
                                            (Some "ExoRad") in
          (base ++ [("info", G sub)], r)
      | Some (G sub0) =>
          let '(sub, r) := store_dictionary sub0 (map (fun kv => (fst kv, IStr (snd kv))) info)
                                            (Some "ExoRad") in
          (sset "info" (G sub) base, r)
      | Some (D _) => (base, Err AttributeError)
      end
    else (base, Ok tt).
End Hdf5.
Arguments INum {V}. Arguments IArr {V}. Arguments IStr {V}. Arguments IQuant {V}.
Arguments IStrArr {V}. Arguments ITab {V}. Arguments IList {V}. Arguments ISignal {V}.
Arguments IDict {V}. Arguments IBad {V}.
Arguments DV {V}. Arguments DS {V}. Arguments DSA {V}. Arguments D {V}. Arguments G {V}.
Arguments LV {V}. Arguments LBytes {V}. Arguments LBytesArr {V}. Arguments LQuant {V}.
Arguments LUnit {V}. Arguments LTab {V}. Arguments LDict {V}.
Arguments create_dataset {V}. Arguments write_quantity {V}. Arguments write_table {V}.
Arguments store_thing {V}. Arguments save_dict {V}. Arguments store_dictionary {V}.
Arguments err_on_dataset {V}. Arguments read_h5 {V}. Arguments times {V}. Arguments with_unit {V}.
Arguments load_table {V}. Arguments load_tables {V}. Arguments read_dict {V}. Arguments depth {V}.
Arguments load {V}. Arguments open_file {V}. Arguments col_group {V}.
Arguments tb_array {V}. Arguments tb_header {V}. Arguments tb_cols {V}.

(** One use of the output file: opening it and storing dictionaries at its top level, as in
    exorad.py:117-121 ([with HDF5Output(...)]; output.py:60-72, hdf5.py:185-243).  A failing
    operation stops the session and leaves what was written so far. *)
Record session (V : Type) :=
  { s_append : bool; s_info : list (string * string);
    s_writes : list (string * list (string * item V)) }.
Arguments s_append {V}. Arguments s_info {V}. Arguments s_writes {V}.

Fixpoint write_all {V} (f : list (string * h5 V)) (ws : list (string * list (string * item V)))
  : list (string * h5 V) * res unit :=
  match ws with
  | [] => (f, Ok tt)
  | (n, d) :: ws' => match store_dictionary f d (Some n) with
                     | (f', Ok _) => write_all f' ws'
                     | (f', Err e) => (f', Err e)
                     end
  end.
Definition run_session {V} (prev : option (list (string * h5 V))) (s : session V)
  : list (string * h5 V) * res unit :=
  match open_file prev (s_append s) (s_info s) with
  | (f, Ok _) => write_all f (s_writes s)
  | (f, Err e) => (f, Err e)
  end.
(** successive runs on the same file name *)
Fixpoint run_history {V} (prev : option (list (string * h5 V))) (h : list (session V))
  : option (list (string * h5 V)) :=
  match h with
  | [] => prev
  | s :: h' => run_history (Some (fst (run_session prev s))) h'
  end.
