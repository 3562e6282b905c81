(** Specification of the table operations. *)
From Verif Require Import Base Dict XR M_Table.
Open Scope list_scope.

(** Distinct column names, columns of equal length *)
Definition well_formed (t : table) : Prop :=
  NoDup (names t) /\ forall c col, In (c, col) t -> length col = n_rows t.

Definition ok_table (t : table) : Prop := well_formed t /\ n_rows t > 0.

(** Text columns present in one table are present in all. *)
Definition fillable (ts : list table) : Prop :=
  forall t u c s rest, In t ts -> In u ts -> sget c t = Some (Txt s :: rest) -> sget c u <> None.

(** The value a filled cell gets: 0 if the value it is modelled on is finite, NaN if it is an
    infinity or NaN, masked if it is masked. *)
Inductive zero_like : cell -> cell -> Prop :=
| zero_fin x : zero_like (Num (Fin x)) (Num (Fin 0))
| zero_nonfin x : ~ is_fin x -> zero_like (Num x) (Num NaN)
| zero_masked : zero_like Masked Masked.

(** What table [t] contributes to column [c]: its own column, or [z] in every row. *)
Definition block (c : string) (z : cell) (t : table) : list cell :=
  match sget c t with Some col => col | None => repeat z (n_rows t) end.

(** [first_value c ts v]: [v] is the first cell of column [c] in the first table having it. *)
Definition first_value (c : string) (ts : list table) (v : cell) : Prop :=
  exists pre t post rest, ts = pre ++ t :: post /\ (forall u, In u pre -> sget c u = None) /\
    sget c t = Some (v :: rest).

(** [stacked ts t]: [t] is the stack of the tables [ts]. *)
Definition stacked (ts : list table) (t : table) : Prop :=
  names t = firsts String.eqb (concat (map names ts)) /\
  forall c, In c (names t) ->
    exists z, sget c t = Some (concat (map (block c z) ts)) /\
      ((exists u, In u ts /\ sget c u = None) -> exists v, first_value c ts v /\ zero_like v z).

(** [extended t t']: [t'] is [t] with more columns, constant ones. *)
Definition extended (t t' : table) : Prop :=
  exists extra, t' = t ++ extra /\
    forall c col, In (c, col) extra -> ~ In c (names t) /\ exists z, col = repeat z (n_rows t).
