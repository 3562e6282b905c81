(** Specifications for the HDF5 output, independent of the writing and reading functions. *)
From Verif Require Import Base PyStr M_Hdf5.

(** the items of a list under the name of the list followed by their number in decimal: a, b, c under
    "key" are "key0", "key1", "key2" *)
Fixpoint numbered {A} (key : string) (n : nat) (l : list A) : list (string * A) :=
  match l with
  | [] => []
  | i :: l' => ((key ++ DecimalString.NilZero.string_of_uint (Nat.to_uint n))%string, i) :: numbered key (S n) l'
  end.

Section Spec.
  Context {V : Type}.
  Notation h5 := (h5 V). Notation item := (item V). Notation lval := (lval V).

  (** the object at a path of names below a node of the file *)
  Fixpoint at_ (p : list string) (x : h5) : option h5 :=
    match p with
    | [] => Some x
    | k :: p' => match x with
                 | D _ => None
                 | G ents => match sget k ents with Some y => at_ p' y | None => None end
                 end
    end.

  (** Everything of [x] is still in [x']: datasets with the same value, groups as groups. *)
  Definition keeps (x x' : h5) : Prop :=
    (forall p d, at_ p x = Some (D d) -> at_ p x' = Some (D d)) /\
    (forall p e, at_ p x = Some (G e) -> exists e', at_ p x' = Some (G e')).

  (** The datasets a dictionary asks for: path and value. *)
  Inductive wants : list (string * item) -> list string -> dval V -> Prop :=
  | W_num d k v : In (k, INum v) d -> wants d [k] (DV v)
  | W_arr d k v : In (k, IArr v) d -> wants d [k] (DV v)
  | W_str d k s : In (k, IStr s) d -> wants d [k] (DS s)
  | W_strarr d k l : In (k, IStrArr l) d -> wants d [k] (DSA l)
  | W_list d k v l : In (k, IList (Ok v) l) d -> wants d [k] (DV v)
  | W_value d v u : In ("value", IQuant v u) d -> wants d ["value"] (DV v)
  | W_qvalue d k v u : In (k, IQuant v u) d -> k <> "value" -> wants d [k; "value"] (DV v)
  | W_qunit d k v u : In (k, IQuant v u) d -> k <> "value" -> wants d [k; "unit"] (DS u)
  | W_table d k t : In (k, ITab t) d -> wants d [k] (DV (tb_array t))
  | W_header d k t : In (k, ITab t) d ->
      wants d [(k ++ ".__table_column_meta__")%string] (DV (tb_header t))
  | W_dict d k sub p v : In (k, IDict sub) d -> wants sub p v -> wants d (k :: p) v
  | W_signal d k sub p v : In (k, ISignal sub) d -> wants sub p v -> wants d (k :: p) v.

  (** ** Round trip *)
  Variable unit_ok : string -> bool.

  (** A table is stored under three names: its rows, its header, and a group with one
      dictionary per column. *)
  Definition names_of (kv : string * item) : list string :=
    match snd kv with
    | ITab _ => [fst kv; (fst kv ++ ".__table_column_meta__")%string; (fst kv ++ "_to_group")%string]
    | _ => [fst kv]
    end.
  Definition columns (t : table V) : list (string * item) :=
    map (fun c => (fst c, IDict (("value", IArr (fst (snd c))) ::
                                 match snd (snd c) with Some u => [("unit", IStr u)] | None => [] end)))
        (tb_cols t).

  (** [Restores d l]: the loaded dictionary [l] gives back the stored dictionary [d]. *)
  Inductive Restores : list (string * item) -> list (string * lval) -> Prop :=
  | Restores_intro d l :
      (forall k, In k (map fst l) <-> In k (flat_map names_of d)) ->
      (forall k it, In (k, it) d -> exists lv, sget k l = Some lv /\ RestoresItem d k it lv) ->
      (forall k t, In (k, ITab t) d -> exists sub,
         sget (k ++ "_to_group")%string l = Some (LDict sub) /\ Restores (columns t) sub) ->
      Restores d l
  with RestoresItem : list (string * item) -> string -> item -> lval -> Prop :=
  (* numbers, arrays and lists of numbers: unchanged, except a "value" standing next to a
     textual "unit", which is multiplied by it *)
  | B_num d k v : (k <> "value" \/ ~ In "unit" (map fst d)) -> RestoresItem d k (INum v) (LV v)
  | B_arr d k v : (k <> "value" \/ ~ In "unit" (map fst d)) -> RestoresItem d k (IArr v) (LV v)
  | B_list d k v x : (k <> "value" \/ ~ In "unit" (map fst d)) ->
      RestoresItem d k (IList (Ok v) x) (LV v)
  | B_num_unit d v u : In ("unit", IStr u) d -> RestoresItem d "value" (INum v) (LQuant v u)
  | B_arr_unit d v u : In ("unit", IStr u) d -> RestoresItem d "value" (IArr v) (LQuant v u)
  | B_list_unit d v x u : In ("unit", IStr u) d -> RestoresItem d "value" (IList (Ok v) x) (LQuant v u)
  | B_str d k s : RestoresItem d k (IStr s) (LBytes s)
  | B_strarr d k x : RestoresItem d k (IStrArr x) (LBytesArr x)
  (* a quantity comes back as a dictionary with its value (with unit) and its unit *)
  | B_quant d k v u l : k <> "value" ->
      sget "value" l = Some (LQuant v u) -> sget "unit" l = Some (LBytes u) ->
      map fst l = ["unit"; "value"] ->
      RestoresItem d k (IQuant v u) (LDict l)
  | B_value_unit d v u u' : In ("unit", IStr u') d -> RestoresItem d "value" (IQuant v u) (LQuant v u')
  | B_value_lost d v u : ~ In "unit" (map fst d) -> RestoresItem d "value" (IQuant v u) (LV v)
  | B_tab d k t : RestoresItem d k (ITab t) (LTab (tb_array t) (tb_header t))
  | B_dict d k sub l : Restores sub l -> RestoresItem d k (IDict sub) (LDict l)
  | B_signal d k sub l : Restores sub l -> RestoresItem d k (ISignal sub) (LDict l).

  (** Dictionaries for which the round trip is claimed: distinct names, none looking like a
      table header and those of tables without dots; numbers, arrays, lists of numbers,
      strings, lists of strings, quantities and table columns with known units, dictionaries;
      and a "unit" next to a "value" only as a known unit name next to a number. *)
  Definition is_numeric (it : item) : bool :=
    match it with INum _ | IArr _ | IQuant _ _ | IList (Ok _) _ => true | _ => false end.
  Fixpoint storable (it : item) : Prop :=
    match it with
    | INum _ | IArr _ | IStr _ | IStrArr _ | IList (Ok _) _ => True
    | IQuant _ u => unit_ok u = true
    | ITab t =>
        NoDup (map fst (tb_cols t)) /\
        (forall c v u, In (c, (v, u)) (tb_cols t) ->
           contains ".__table_column_meta__" c = false /\
           match u with Some n => unit_ok n = true | None => True end) /\
        ~ (In "value" (map fst (tb_cols t)) /\ In "unit" (map fst (tb_cols t)))
    | IDict d | ISignal d =>
        NoDup (flat_map names_of d) /\
        (forall k i, In (k, i) d ->
           contains (match i with ITab _ => "." | _ => ".__table_column_meta__" end) k = false) /\
        (forall a b, In ("value", a) d -> In ("unit", b) d ->
           is_numeric a = true /\ exists u, b = IStr u /\ unit_ok u = true) /\
        (fix all (l : list (string * item)) : Prop :=
           match l with [] => True | (k, i) :: l' => storable i /\ all l' end) d
    | _ => False
    end.
End Spec.
