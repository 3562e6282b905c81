(** Specifications for the plots, independent of M_Plot's functions. *)
From Coq Require Import Reals.
From Verif Require Import Base XR M_Plot.
Open Scope list_scope.

(** the text [sub] occurs in [s] *)
Definition mentions (sub s : string) : Prop := exists u v, s = (u ++ sub ++ v)%string.
(** [t] has the column of numbers [l] under the name [n] *)
Definition has_numbers (t : ptable) (n : string) (l : list xr) : Prop := exists h, In (n, Numbers h l) (p_cols t).
Definition cells_in (c : pcolumn) : nat := match c with Numbers _ l => length l | Texts l => length l end.
(** A table as astropy has them: distinct names, as many rows in every column. *)
Definition sound_table (t : ptable) : Prop :=
  NoDup (map fst (p_cols t)) /\ exists n, forall k c, In (k, c) (p_cols t) -> cells_in c = n.
(** An enumeration of sets of names: each element once, in some order. *)
Definition enumerates (en : list string -> list string) : Prop :=
  forall l, NoDup (en l) /\ forall x, In x (en l) <-> In x l.

(** The names drawn in each panel *)
Definition signal_name (n : string) : Prop := mentions "signal" n /\ ~ mentions "noise" n.
Definition noise_name (n : string) : Prop := mentions "noise" n \/ mentions "custom" n.

(** [y] is what is drawn of the noise column [n]: the column itself if it is the total noise or
    already relative (hr**0.5), otherwise the ratio to the signal of the star, row by row *)
Definition noise_values (t : ptable) (n : string) (y : list xr) : Prop :=
  (exists h, In (n, Numbers h y) (p_cols t) /\ (n = "total_noise" \/ h = true)) \/
  (n <> "total_noise" /\ exists l s, In (n, Numbers false l) (p_cols t) /\ has_numbers t "star_signal_inAperture" s /\
     length y = length l /\
     forall i a b, nth_error l i = Some a -> nth_error s i = Some b -> nth_error y i = Some (xdiv a b)).

(** [x] is an edge (column [name]) of a row of the channel [ch] *)
Definition edge (t : ptable) (name ch : string) (x : xr) : Prop :=
  exists chs l i, In ("chName", Texts chs) (p_cols t) /\ has_numbers t name l /\
    nth_error chs i = Some ch /\ nth_error l i = Some x.
(** the edges are numbers *)
Definition finite_edges (t : ptable) : Prop :=
  forall name ch x, (name = "LeftBinEdge" \/ name = "RightBinEdge") -> edge t name ch x -> exists r, x = Fin r.
(** the band of a channel: from its lowest lower edge to its highest upper edge *)
Definition band_of (t : ptable) (ch : string) (b : xr * xr) : Prop :=
  exists lo hi, b = (Fin lo, Fin hi) /\
    edge t "LeftBinEdge" ch (Fin lo) /\ (forall r, edge t "LeftBinEdge" ch (Fin r) -> (lo <= r)%R) /\
    edge t "RightBinEdge" ch (Fin hi) /\ (forall r, edge t "RightBinEdge" ch (Fin r) -> (r <= hi)%R).

(** What a table must have to be drawn *)
Definition drawable (t : ptable) : Prop :=
  p_name t <> None /\
  (exists chs, In ("chName", Texts chs) (p_cols t) /\ chs <> []) /\
  (exists l, has_numbers t "LeftBinEdge" l) /\ (exists l, has_numbers t "RightBinEdge" l) /\
  (forall n c, In (n, c) (p_cols t) -> signal_name n \/ noise_name n ->
     (exists h l, c = Numbers h l) /\ exists w, has_numbers t "Wavelength" w) /\
  (forall n l, In (n, Numbers false l) (p_cols t) -> noise_name n -> n <> "total_noise" ->
     exists s, has_numbers t "star_signal_inAperture" s).

(** a directory written without a final slash *)
Definition plain_dir (out : string) : Prop := out <> ""%string /\ forall p, out <> (p ++ "/")%string.
(** where the figure of a target goes *)
Definition image (out n : string) : string := (out ++ "/" ++ n ++ ".png")%string.
