(** Model of the target and channel tables (astropy QTable): exorad/utils/util.py:79-94,
    exorad/tasks/targetHandler.py:67-185, exorad/tasks/instrumentHandler.py:292-316,
    exorad/exorad.py:87-97.  Definitions only.
    Simplifications: the values of a column are in one fixed unit (unit conversions and unit
    mismatches are not modelled); dtypes are not modelled. *)
From Verif Require Import Base XR.
Open Scope list_scope.

(** A cell: a number, a text or a masked entry. *)
Inductive cell := Num (x : xr) | Txt (s : string) | Masked.
(** Columns, in order *)
Definition table := list (string * list cell).
Definition names (t : table) : list string := map fst t.
(** len(table) *)
Definition n_rows (t : table) : nat := match t with [] => 0 | (_, c) :: _ => length c end.

(** 0.0 * cell: np.zeros(n) * table[c][0], util.py:87,91.  A text raises (UFuncTypeError). *)
Definition zero_of (c : cell) : res cell :=
  match c with
  | Num x => Ok (Num (xmul (Fin 0) x))
  | Txt _ => Err TypeError
  | Masked => Ok Masked
  end.

(** The columns of [from] missing in [to] are added to [to], util.py:84-91 *)
Fixpoint fill_missing (from to : table) : res table :=
  match from with
  | [] => Ok to
  | (c, col) :: from' =>
      if smem c to then fill_missing from' to
      else match col with
           | [] => Err IndexError
           | v :: _ => let* z := zero_of v in
                       fill_missing from' (to ++ [(c, repeat z (n_rows to))])
           end
  end.
(** vstack([a, b]) for tables with the same column names *)
Definition vstack2 (a b : table) : table :=
  map (fun x => (fst x, snd x ++ match sget (fst x) b with Some c => c | None => [] end)) a.
(** One round of the loop, util.py:83-92: both tables as modified, and the stack *)
Definition stack_step (t tab : table) : res (table * table * table) :=
  let* tab' := fill_missing t tab in
  let* t' := fill_missing tab' t in
  Ok (t', tab', vstack2 t' tab').

(** vstack_tables, util.py:79-94.  Result: the inputs as they are left (they are modified
    in place), and the stacked table, None standing for False. *)
Fixpoint stack_rest (t : table) (tabs : list table) : res (list table * table) :=
  match tabs with
  | [] => Ok ([], t)
  | tab :: tabs' =>
      let* (_, tab', t') := stack_step t tab in
      let* (rest, r) := stack_rest t' tabs' in
      Ok (tab' :: rest, r)
  end.
Fixpoint vstack_go (cur : option table) (tabs : list table) : res (list table * option table) :=
  match tabs with
  | [] => Ok ([], cur)
  | tab :: tabs' =>
      if Nat.eqb (n_rows tab) 0 then           (* "if not table" holds again at the next one *)
        let* (rest, r) := vstack_go (Some tab) tabs' in Ok (tab :: rest, r)
      else match tabs' with
           | [] => Ok ([tab], Some tab)
           | tab2 :: tabs'' =>                  (* [table] is the first input itself *)
               let* (tab1', tab2', t) := stack_step tab tab2 in
               let* (rest, r) := stack_rest t tabs'' in
               Ok (tab1' :: tab2' :: rest, Some r)
           end
  end.
Definition vstack_tables (tabs : list table) : res (list table * option table) := vstack_go None tabs.

(** hstack([a, b]) (outer): columns side by side, the shorter ones padded with masked cells.
    The names are assumed distinct: UpdateTargetTable removes repeated ones first. *)
Definition pad (n : nat) (c : list cell) : list cell := c ++ repeat Masked (n - length c).
Definition hstack (a b : table) : table :=
  let n := Nat.max (n_rows a) (n_rows b) in
  map (fun x => (fst x, pad n (snd x))) (a ++ b).

(** Tables with metadata *)
Record mtable := { cols : table; meta : list (string * string) }.

(** UpdateTargetTable, targetHandler.py:128-147.  Result: the previous table object as it is
    left (repeated columns are removed from it in place) and the new table. *)
Definition update_table (old new : mtable) : mtable * mtable :=
  let kept := {| cols := filter (fun x => negb (smem (fst x) (cols new))) (cols old); meta := meta old |} in
  (kept, {| cols := hstack (cols kept) (cols new);
            meta := dupdate String.eqb (dupdate String.eqb (meta old) (meta new)) (meta new) |}).

(** Sums of cells: max_signal += table[key] *)
Definition cadd (a : xr) (c : cell) : res cell :=
  match c with
  | Num x => Ok (Num (xadd a x))
  | Txt _ => Err TypeError
  | Masked => Ok Masked
  end.
Definition cell_add (a b : cell) : res cell :=
  match a with
  | Num x => cadd x b
  | Masked => match b with Txt _ => Err TypeError | _ => Ok Masked end
  | Txt _ => Err TypeError
  end.
Definition add_column (acc c : list cell) : res (list cell) :=
  if Nat.eqb (length acc) (length c)
  then mapM (fun p => cell_add (fst p) (snd p)) (combine acc c)
  else Err ValueError.
Fixpoint add_columns (acc : list cell) (cs : list (list cell)) : res (list cell) :=
  match cs with [] => Ok acc | c :: cs' => let* a := add_column acc c in add_columns a cs' end.
Definition max_columns (t : table) : table := filter (fun x => contains "Max" (fst x)) t.

(** EstimateMaxSignal, targetHandler.py:168-185 *)
Definition estimate_max_signal (t : mtable) : res mtable :=
  match sget "Wavelength" (cols t) with
  | None => Err KeyError
  | Some wl =>
      let* m := add_columns (repeat (Num (Fin 0)) (length wl)) (map snd (max_columns (cols t))) in
      Ok (snd (update_table t {| cols := [("MaxSignal_inPixel", m)]; meta := [] |}))
  end.

(** MergeChannelsOutput, instrumentHandler.py:307-316: channels in dictionary order *)
Definition merge_channels (channels : list (string * table)) : res (list table * option table) :=
  vstack_tables (map snd channels).

(** table[key][table["chName"] == name] *)
Definition is_name (n : string) (c : cell) : bool := match c with Txt s => String.eqb s n | _ => false end.
Definition select (name key : string) (t : table) : res (list cell) :=
  match sget key t, sget "chName" t with
  | Some c, Some n => Ok (map fst (filter (fun p => is_name name (snd p)) (combine c n)))
  | _, _ => Err KeyError
  end.

(** full_contrib, exorad.py:87-97: the per-element signals replace the instrument total *)
Definition full_contrib (ch signals : table) : table :=
  filter (fun x => negb (String.eqb (fst x) "instrument_signal")) (hstack ch signals).
