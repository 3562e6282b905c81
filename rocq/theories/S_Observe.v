(** Specification of observations. *)
From Verif Require Import Base XR M_Light M_Bins M_Star M_Foreground M_Table M_Observe.
From Verif Require M_Noise.
Open Scope list_scope.

(** The cells of the rows labelled [name] *)
Fixpoint labelled_rows (name : string) (labels cells : list cell) : list cell :=
  match labels, cells with
  | Txt s :: labels', v :: cells' => if String.eqb s name then v :: labelled_rows name labels' cells' else labelled_rows name labels' cells'
  | _ :: labels', _ :: cells' => labelled_rows name labels' cells'
  | _, _ => []
  end.
(** In [T], column [k] has the cells [v] in the rows of channel [name]. *)
Definition shows (T : table) (name k : string) (v : list cell) : Prop :=
  exists labels cells, sget "chName" T = Some labels /\ sget k T = Some cells /\ v = labelled_rows name labels cells.

(** A channel as it is built: one row per bin, in the table and in all that is computed per bin; its
    name in the column chName and in its description; a photometer has one bin. *)
Definition as_built (ns : list string) (nc : string * chan) : Prop :=
  let (name, c) := nc in
  let n := length (c_bins (h_star c)) in
  (0 < n)%nat /\ names (cols (h_table c)) = ns /\ (forall k col, In (k, col) (cols (h_table c)) -> length col = n) /\
  sget "chName" (cols (h_table c)) = Some (repeat (Txt name) n) /\
  M_Noise.ch_name (h_noise c) = name /\
  length (b_size (h_light c)) = n /\ (forall w, b_spatial (h_light c) = Some w -> length w = n) /\
  match h_kind c with Phot _ _ => n = 1%nat | Spec _ _ _ => True end.
(** The channels of a payload: their tables have the same columns, [ns]. *)
Definition instruments (ns : list string) (chs : list (string * chan)) : Prop :=
  chs <> [] /\ NoDup (map fst chs) /\ NoDup ns /\ ~ In "sky TR" ns /\ ~ In "foreground_transmission" ns /\
  Forall (as_built ns) chs.
(** A channel after some observations: as built, but for the column "sky TR", and for the header *)
Definition same_but_sky (a b : string * chan) : Prop :=
  fst b = fst a /\ snd b = with_table (snd a) (h_table (snd b)) /\
  (cols (h_table (snd b)) = cols (h_table (snd a)) \/
   exists col, length col = length (c_bins (h_star (snd a))) /\ (forall s, ~ In (Txt s) col) /\
     cols (h_table (snd b)) = cols (h_table (snd a)) ++ [("sky TR", col)]).
(** The columns of the foregrounds are not among [ns]. *)
Definition foreign (ns : list string) (fs : option (sdict foreground)) : Prop :=
  forall fs', fs = Some fs' -> forall k, In k (map fst fs') -> ~ In (k ++ "_signal")%string ns /\ ~ In (k ++ "_MaxSignal_inPixel")%string ns.

(** Columns computed by the noise estimate are not among [ns]. *)
Definition ordinary (k : string) : Prop := k <> "saturation_time"%string /\ k <> "frameTime"%string /\ forall m, k <> (m ++ "_noise")%string.
Definition quiet (ns : list string) : Prop := forall k, In k ns -> ordinary k.
(** With a single channel (whose table and the one of the target are the same object), foregrounds
    have columns of their own. *)
Definition columns_apart (ns : list string) (chs : list (string * chan)) (s : setting) (x : target) : Prop :=
  length chs = 1%nat -> forall g, foregrounds_of s (x_sky x) = Ok g -> foreign ns (g_foreground g).
(** Columns which do not report the transmission of the sky, or do so in the presence of a sky: all
    but those a previous observation may have left behind. *)
Definition fresh_column (x : target) (k : string) : Prop :=
  k <> "sky TR"%string /\ (g_sky (x_sky x) = None -> k <> "foreground_transmission"%string).
(** The same observation as far as one can see: the same error, or the same source and sky, and the
    same columns in the same order, but for the ones left behind. *)
Definition alike (r r' : res target) : Prop :=
  match r, r' with
  | Err e, Err e' => e = e'
  | Ok y, Ok y' => x_sky y' = x_sky y /\ x_source y' = x_source y /\
      exists T T', x_table y = Some T /\ x_table y' = Some T' /\ forall k, fresh_column y k -> sget k (cols T') = sget k (cols T)
  | _, _ => False
  end.
(** An attribute of the star in a header *)
Definition noted (h : list (string * M_Source.meta)) (k : string) (a : option R) : Prop :=
  sget k h = Some (match a with Some v => M_Source.MNumber v | None => M_Source.MNone end).
