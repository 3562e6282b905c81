(** Model of exorad/models/targetlist.py and LoadTargetList (exorad/tasks/targetHandler.py:14-64).
    Definitions only.
    Simplifications: reading the file (astropy.io.ascii, xlrd) is the input of the model: a
    list of columns; masked cells are not modelled; numbers are opaque ([V]); u.Unit is the
    parameter [unit_ok]; a number times a unit is kept as a pair. *)
From Verif Require Import Base PyStr M_Version.
Open Scope list_scope.

Section TL.
  Variable V : Type.
  Variable unit_ok : string -> bool.   (* does u.Unit(s) accept s? *)

  Inductive cell := Txt (s : string) | Num (v : V).
  Inductive val := VCell (c : cell) | VQuant (c : cell) (u : string).

  Record target := { id : nat; name : val; star : list (string * val);
                     planet : option (list (string * val)) }.

  (** str.split(" ")[1] *)
  Definition word2 (h : string) : res string :=
    match nth_error (py_split " "%char h) 1 with Some w => Ok w | None => Err IndexError end.

  Definition mk_unit (u : string) : res string := if unit_ok u then Ok u else Err ValueError.
  (** val * (1 * u.Unit(..)): for a text cell astropy parses the text as a unit (scale) *)
  Definition times (c : cell) (u : option string) : res val :=
    match u with
    | None => Ok (VCell c)
    | Some u => match c with
                | Num _ => Ok (VQuant c u)
                | Txt s => if unit_ok s then Ok (VQuant c u) else Err ValueError
                end
    end.

  (** BaseTargetList.create_target_list, targetlist.py:39-85.  Keys and data of the stars,
      and of the planets or the error met while reading them (swallowed at 51-55). *)
  Definition field_name (d : list (string * val)) : res val :=
    match sget "name" d with Some v => Ok v | None => Err AttributeError end.
  Definition zip_dict (keys : list string) (row : list val) : list (string * val) :=
    dof_list String.eqb (combine keys row).
  Definition numbered {A} (l : list A) : list (nat * A) := combine (seq 0 (length l)) l.
  Definition create_target_list (stars : res (list string * list (list val)))
             (planets : res (list string * list (list val))) : res (list target) :=
    let* (skeys, sdata) := stars in
    match planets with
    | Ok (pkeys, (p0 :: _) as pdata) =>
        mapM (fun x : nat * (list val * list val) =>
                let '(i, (s, p)) := x in
                let pd := zip_dict pkeys p in
                let sd := zip_dict skeys s in
                let* n := field_name pd in
                Ok {| id := i; name := n; star := sd; planet := Some pd |})
             (numbered (combine sdata pdata))
    | _ =>
        mapM (fun x : nat * list val =>
                let '(i, s) := x in
                let sd := zip_dict skeys s in
                let* n := field_name sd in
                Ok {| id := i; name := n; star := sd; planet := None |})
             (numbered sdata)
    end.

  (** A table: columns with their header, all of the same length. *)
  Definition table := list (string * list cell).
  Definition n_rows (t : table) : nat := match t with [] => 0 | (_, c) :: _ => length c end.
  Definition row {A} (d : A) (cols : list (list A)) (i : nat) : list A :=
    map (fun c => nth i c d) cols.

  (** *** CSVTargetList, targetlist.py:168-224; [w] is "star" or "planet" *)
  Definition csv_cols (w : string) (t : table) : table := filter (fun c => contains w (fst c)) t.
  Definition csv_keys (w : string) (t : table) : res (list string) :=
    mapM (fun c => word2 (fst c)) (csv_cols w t).
  (** units, targetlist.py:184-192: the third of exactly three words, brackets removed *)
  Definition strip_unit (s : string) : string := py_replace "]" "" (py_replace "[" "" s).
  Definition csv_unit (h : string) : res (option string) :=
    match py_split " "%char h with
    | [_; _; u] => let* u := mk_unit (strip_unit u) in Ok (Some u)
    | _ => Ok None
    end.
  Definition csv_data (w : string) (t : table) : res (list (list val)) :=
    let cols := csv_cols w t in
    let* units := mapM (fun c => csv_unit (fst c)) cols in
    mapM (fun i => mapM (fun cu : cell * option string => times (fst cu) (snd cu))
                        (combine (row (Txt "") (map snd cols) i) units))
         (seq 0 (n_rows cols)).
  Definition both {A B} (a : res A) (b : res B) : res (A * B) := let* x := a in let* y := b in Ok (x, y).
  Definition load_csv (t : table) : res (list target) :=
    create_target_list (both (csv_keys "star" t) (csv_data "star" t))
                       (both (csv_keys "planet" t) (csv_data "planet" t)).

  (** *** CSVTargetListMRS, targetlist.py:227-379 *)
  Definition mrs_cols (w : string) (t : table) : table :=
    filter (fun c => contains w (py_lower (fst c)) && negb (contains "error" (py_lower (fst c)))) t.
  Definition check_keys (k : string) : string :=
    if String.eqb k "mass" then "M" else if String.eqb k "radius" then "R"
    else if String.eqb k "temperature" then "Teff" else if String.eqb k "distance" then "D"
    else if String.eqb k "period" then "P" else if String.eqb k "molecular weight" then "mmw"
    else if String.eqb k "semi-major axis" then "a" else if String.eqb k "impact parameter" then "b"
    else if String.eqb k "heat redistribution factor" then "Gamma"
    else if String.eqb k "transit duration" then "T14" else k.
  Definition check_units (u : string) : string :=
    if String.eqb u "Rs" then "R_sun" else if String.eqb u "Ms" then "M_sun"
    else if String.eqb u "Re" then "R_earth" else if String.eqb u "Me" then "M_earth"
    else if String.eqb u "Rj" then "R_jupiter" else if String.eqb u "Mj" then "M_jupiter"
    else if String.eqb u "days" then "day" else u.
  (** what follows the first space: k.split(" ", 1)[1] *)
  Fixpoint after_space (s : string) : res string :=
    match s with
    | EmptyString => Err IndexError
    | String c s' => if Ascii.eqb c " "%char then Ok s' else after_space s'
    end.
  Definition mrs_key (h : string) : res string :=
    let* k := after_space h in
    let k := py_lower k in
    Ok (check_keys (if contains "[" k then str_slice 0 (str_find "["%char k 0 - 1)%Z k else k)).
  Definition mrs_keys (w : string) (t : table) : res (list string) :=
    mapM (fun c => mrs_key (fst c)) (mrs_cols w t).
  Definition mrs_unit (h : string) : res (option string) :=
    if contains "[" h then
      let* u := mk_unit (check_units (str_slice (str_find "["%char h 0 + 1)%Z (str_find "]"%char h 0) h)) in
      Ok (Some u)
    else Ok None.
  (** decimal commas become dots; the converted number is thrown away (the text is kept) *)
  Definition mrs_cell (c : cell) : cell :=
    match c with Txt s => if contains "," s then Txt (py_replace "," "." s) else c | Num _ => c end.
  Definition mrs_data (w : string) (t : table) : res (list (list val)) :=
    let cols := mrs_cols w t in
    let* units := mapM (fun c => mrs_unit (fst c)) cols in
    mapM (fun i => mapM (fun cu : cell * option string => times (mrs_cell (fst cu)) (snd cu))
                        (combine (row (Txt "") (map snd cols) i) units))
         (seq 0 (n_rows cols)).
  Definition load_mrs (t : table) : res (list target) :=
    create_target_list (both (mrs_keys "star" t) (mrs_data "star" t))
                       (both (mrs_keys "planet" t) (mrs_data "planet" t)).

  (** *** QTableTargetList, targetlist.py:451-498: cells are texts or quantities *)
  Definition qtable := list (string * list val).
  Definition q_rows (t : qtable) : nat := match t with [] => 0 | (_, c) :: _ => length c end.
  Definition check_quantity (v : val) : res val :=
    match v with
    | VCell (Txt _) => Ok v
    | VQuant _ _ => Ok v
    | VCell (Num _) => Err TypeError
    end.
  Definition q_cols (w : string) (t : qtable) : qtable := filter (fun c => contains w (fst c)) t.
  Definition q_keys (w : string) (t : qtable) : res (list string) :=
    mapM (fun c => word2 (fst c)) (q_cols w t).
  Definition q_data (w : string) (t : qtable) : res (list (list val)) :=
    let cols := q_cols w t in
    mapM (fun i => mapM check_quantity (row (VCell (Txt "")) (map snd cols) i)) (seq 0 (q_rows cols)).
  Definition load_qtable (t : qtable) : res (list target) :=
    create_target_list (both (q_keys "star" t) (q_data "star" t))
                       (both (q_keys "planet" t) (q_data "planet" t)).

  (** *** XLXSTargetList, targetlist.py:105-165: columns of the sheet with the key (row 2),
      the unit text (row 3) and the data (from row 4); columns 1-6 are the star, 8-18 the
      planet, 20 the number of observations. *)
  Definition sheet := list (string * string * list cell).
  Definition slice_cols (a b : nat) (s : sheet) : sheet := firstn (b + 1 - a) (skipn a s).
  Definition xlsx_unit (s : string) : option string :=
    if String.eqb s "" then None
    else if unit_ok (strip_unit s) then Some (strip_unit s) else None.
  (** list * unit: every cell must be a number *)
  Definition xlsx_times (u : option string) (c : cell) : res val :=
    match u, c with
    | None, _ => Ok (VCell c)
    | Some u, Num _ => Ok (VQuant c u)
    | Some _, Txt _ => Err TypeError
    end.
  (** __parseData__, targetlist.py:121-138: the first key becomes "name" *)
  Definition parse_data (s : sheet) : res (list (string * list val)) :=
    match s with
    | [] => Err IndexError
    | (_, u0, d0) :: s' =>
        let* cols := mapM (fun x => let '(k, u, d) := x in
                              let* vs := mapM (xlsx_times (xlsx_unit u)) d in Ok (k, vs))
                         (("name", u0, d0) :: s') in
        Ok (dof_list String.eqb cols)
    end.
  (** list(map(list, zip( *values ))) *)
  Definition transpose (cols : list (list val)) : list (list val) :=
    match cols with
    | [] => []
    | c :: cs => map (row (VCell (Txt "")) cols)
                     (seq 0 (fold_right (fun c n => Nat.min (length c) n) (length c) cs))
    end.
  Definition load_xlsx (s : sheet) : res (list target) :=
    let* pl := parse_data (slice_cols 8 18 s) in
    match nth_error s 20 with
    | None => Err IndexError
    | Some (_, _, nobs) =>
        let pl := sset "Nobs" (map VCell nobs) pl in
        let* st := parse_data (slice_cols 1 6 s) in
        create_target_list (Ok (map fst st, transpose (map snd st)))
                           (Ok (map fst pl, transpose (map snd pl)))
    end.

  (** *** LoadTargetList.execute, targetHandler.py:37-64.  The argument: a path with the
      outcome of each reader on it, or something else (a QTable). *)
  Inductive tl_arg :=
  | Path (file : string)
  | Obj (t : qtable).
  Definition load_target_list (xlsx csv mrs : string -> res (list target)) (a : tl_arg)
    : res (list target) :=
    match a with
    | Obj t => load_qtable t
    | Path file =>
        let ext := splitext file in
        let r :=
          if String.eqb ext ".xlsx" then xlsx file
          else if String.eqb ext ".csv" then
            match csv file with
            | Ok [] => mrs file
            | r => r
            end
          else Err KeyError in
        match r with
        | Err KeyError => Err OSError
        | Err TypeError => Err AttributeError   (* QTableTargetList(path): str has no keys() *)
        | r => r
        end
    end.

  (** searchTarget, targetlist.py:91-102; [matches name text]: re.search on the compacted
      strings.  A target without planet raises unless its star matches. *)
  Variable matches : string -> string -> bool.
  Variable str_of_val : val -> string.
  Definition compact (s : string) : string := py_lower (py_replace "-" "" (py_replace " " "" s)).
  Fixpoint search_target (q : string) (ts : list target) : res (list target) :=
    match ts with
    | [] => Ok []
    | t :: ts' =>
        let* sn := field_name (star t) in
        let* hit :=
          if matches (compact q) (compact (str_of_val sn)) then Ok true
          else match planet t with
               | None => Err AttributeError
               | Some p => let* pn := field_name p in Ok (matches (compact q) (compact (str_of_val pn)))
               end in
        let* rest := search_target q ts' in
        Ok (if hit then t :: rest else rest)
    end.
End TL.
Arguments Txt {V}. Arguments Num {V}. Arguments VCell {V}. Arguments VQuant {V}.
Arguments id {V}. Arguments name {V}. Arguments star {V}. Arguments planet {V}.
Arguments Path {V}. Arguments Obj {V}.
