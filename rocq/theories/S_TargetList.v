(** Specification of target lists: which cell of the table each field comes from. *)
From Verif Require Import Base PyStr M_Version M_TargetList.
Open Scope list_scope.

(** [comes_from key value cols i f v]: field [f] has value [v] in row [i]: [v] is the value
    of the cell in row [i] of the last column whose header gives the field [f]. *)
Definition comes_from {C A : Type} (key : string -> string -> Prop) (value : string -> C -> A -> Prop)
           (cols : list (string * list C)) (i : nat) (f : string) (v : A) : Prop :=
  exists j h cells c,
    nth_error cols j = Some (h, cells) /\ key h f /\ nth_error cells i = Some c /\ value h c v /\
    forall j' h' cells', j < j' -> nth_error cols j' = Some (h', cells') -> ~ key h' f.

Definition same_length {C} (n : nat) (cols : list (string * list C)) : Prop :=
  Forall (fun c => length (snd c) = n) cols.

(** CSV headers: "star <field>" or "star <field> [unit]" *)
Definition csv_key_of (h f : string) : Prop := nth_error (py_split " "%char h) 1 = Some f.
Definition csv_value {V} (h : string) (c : cell V) (v : val V) : Prop :=
  match py_split " "%char h with
  | [_; _; u] => v = VQuant c (strip_unit u)
  | _ => v = VCell c
  end.
(** QTable headers "star <field>", cells carry their units *)
Definition q_value {V} (h : string) (c v : val V) : Prop := v = c.
(** MRS headers: "Star <Long Name> [unit]" *)
Definition mrs_columns {C} (w : string) (cols : list (string * list C)) : list (string * list C) :=
  filter (fun c => contains w (py_lower (fst c)) && negb (contains "error" (py_lower (fst c)))) cols.
Definition mrs_key_of (h f : string) : Prop := mrs_key h = Ok f.
Definition mrs_value {V} (h : string) (c : cell V) (v : val V) : Prop :=
  let c' := match c with Txt s => Txt (py_replace "," "." s) | Num _ => c end in
  if contains "[" h
  then v = VQuant c' (check_units (str_slice (str_find "["%char h 0 + 1)%Z (str_find "]"%char h 0) h))
  else v = VCell c'.

Definition named {C} (w : string) (cols : list (string * list C)) : list (string * list C) :=
  filter (fun c => contains w (fst c)) cols.

(** Headers and cells which can be read *)
Definition csv_readable {V} (unit_ok : string -> bool) (cols : list (string * list (cell V))) : Prop :=
  forall h cells, In (h, cells) cols ->
    (exists f, csv_key_of h f) /\
    forall a b u, py_split " "%char h = [a; b; u] ->
      unit_ok (strip_unit u) = true /\ forall c, In c cells -> exists x, c = Num x.

(** What every format promises: [sc] and [pc] are the star and planet columns, [n] the number
    of rows, [unreadable] says why planet columns were not used. *)
Definition one_target_per_row {V C} (key : string -> string -> Prop) (value : string -> C -> val V -> Prop)
           (sc pc : list (string * list C)) (n : nat) (unreadable : Prop) (ts : list (target V)) : Prop :=
  length ts = n /\
  forall i t, nth_error ts i = Some t ->
    id t = i /\
    (forall f v, sget f (star t) = Some v <-> comes_from key value sc i f v) /\
    match planet t with
    | Some p => pc <> [] /\
                (forall f v, sget f p = Some v <-> comes_from key value pc i f v) /\
                sget "name" p = Some (name t)
    | None => sget "name" (star t) = Some (name t) /\ (pc = [] \/ unreadable)
    end.

(** Spreadsheets: the columns first..last with the first key read as "name", every cell
    paired with the unit of its column if there is an acceptable one. *)
Definition xlsx_cell {V} (unit_ok : string -> bool) (u : string) (c : cell V) : val V :=
  if negb (String.eqb u "") && unit_ok (strip_unit u) then VQuant c (strip_unit u) else VCell c.
Definition xlsx_columns {V} (unit_ok : string -> bool) (first last : nat) (s : sheet V)
  : list (string * list (val V)) :=
  map (fun x => let '(k, u, d) := x in (k, map (xlsx_cell unit_ok u) d))
      (match firstn (last + 1 - first) (skipn first s) with
       | [] => []
       | (_, u, d) :: rest => ("name", u, d) :: rest
       end).
Definition is_key (h f : string) : Prop := h = f.

(** The documented short names and unit abbreviations of the MRS format *)
Definition mrs_short_names : list (string * string) :=
  [("mass", "M"); ("radius", "R"); ("temperature", "Teff"); ("distance", "D"); ("period", "P");
   ("molecular weight", "mmw"); ("semi-major axis", "a"); ("impact parameter", "b");
   ("heat redistribution factor", "Gamma"); ("transit duration", "T14")].
Definition mrs_unit_names : list (string * string) :=
  [("Rs", "R_sun"); ("Ms", "M_sun"); ("Re", "R_earth"); ("Me", "M_earth"); ("Rj", "R_jupiter");
   ("Mj", "M_jupiter"); ("days", "day")].
Definition lookup_or (d : list (string * string)) (k : string) : string :=
  match sget k d with Some v => v | None => k end.
Definition free_of (c : ascii) (s : string) : Prop := forall a, In a (str_chars s) -> a <> c.
