(** Vocabulary of the properties about spectral bins, pixels and windows. *)
From Verif Require Import Base XR M_Signal M_Optics M_Light M_Bins S_Signal S_Optics S_Light.
Open Scope list_scope.
Open Scope R_scope.

(** a bin is what its edges say *)
Definition proper (b : bin) : Prop :=
  centre b = (left_edge b + right_edge b) / 2 /\ width b = right_edge b - left_edge b.
(** bins side by side from [a] to [c], none of them empty *)
Inductive tiling : R -> list bin -> R -> Prop :=
| tile_none : forall a, tiling a [] a
| tile_one : forall b l c, left_edge b < right_edge b -> tiling (right_edge b) l c -> tiling (left_edge b) (b :: l) c.
(** the edges of some bins: the left ones and the last right one *)
Definition edges_of (bins : list bin) : list R :=
  map left_edge bins ++ match rev bins with [] => [] | b :: _ => [right_edge b] end.

(** multiples of 0.0001 um, and rounding to them *)
Definition multiple4 (x : R) : Prop := exists z, x = IZR z / 10000.
Definition rounded4 (x y : R) : Prop := multiple4 y /\ Rabs (x - y) <= 0.00005.
(** [y] is read from the table at [w]: on the straight line between two neighbouring rows, or the
    last row *)
Definition read_at (tab : list (R * R)) (w y : R) : Prop :=
  (exists p q, neighbours tab p q /\ fst p <= w < fst q /\ y = snd p + (snd q - snd p) * (w - fst p) / (fst q - fst p))
  \/ (exists p, In p tab /\ (forall q, In q tab -> fst q <= fst p) /\ w = fst p /\ y = snd p).
(** the edge after [w]: one resolution element further, rounded *)
Definition edge_after (tab : list (R * R)) (w w' : R) : Prop := exists r, read_at tab w r /\ rounded4 (w + w / r) w'.
(** the construction of edges reaches [w] from [a] before [top] *)
Inductive reaches_edge (step : R -> res R) (top : R) (a : R) : R -> Prop :=
| start : reaches_edge step top a a
| further : forall w w', reaches_edge step top a w -> w < top -> step w = Ok w' -> reaches_edge step top a w'.

(** strictly monotone correspondence of positions and wavelengths *)
Definition dispersion (s : solution) : Prop :=
  length (sol_wl s) = length (sol_x s) /\ (2 <= length (sol_x s))%nat
  /\ ((increasing (sol_x s) /\ (increasing (sol_wl s) \/ increasing (rev (sol_wl s))))
      \/ (increasing (rev (sol_x s)) /\ (increasing (sol_wl s) \/ increasing (rev (sol_wl s))))).
(** the columns W and R of a table of resolutions, row by row *)
Definition resolution_table (t : column_table) (tab : list (R * R)) : Prop :=
  exists w r, sget "W" t = Some w /\ sget "R" t = Some r /\ length w = length r /\ tab = combine w r.
(** wavelengths in order, resolutions positive *)
Definition sound_table (tab : list (R * R)) : Prop := increasing (map fst tab) /\ forall p, In p tab -> 0 < snd p.
(** [v] is what a tabulated curve says at [w]: 0 outside the table *)
Definition curve_at (tab : list (R * R)) (w v : R) : Prop :=
  read_at tab w v \/ ((forall p, In p tab -> w < fst p) \/ (forall p, In p tab -> fst p < w)) /\ v = 0.

(** ** Windows *)
(** the extent of a bin in pixels along the spectrum: a prescribed one, or the distance of its edges *)
Definition spectral_extent (fixed : option R) (x : R -> R) (delta : R) (b : bin) : R :=
  match fixed with Some v => v | None => Rabs (x (right_edge b) - x (left_edge b)) / delta end.
(** across the spectrum: a prescribed one, or the aperture's diameter (2.44 F lambda unless encircled
    energy radii are given, in units of F lambda), possibly scaled *)
Definition spatial_extent (fixed scale : option R) (radius : option (R -> R)) (fnum_y delta : R) (b : bin) : R :=
  match fixed with
  | Some v => v
  | None => (match scale with Some v => v | None => 1 end)
            * (2 * (match radius with Some r => r (centre b) | None => 1.22 end) * (fnum_y * centre b)) / delta
  end.
(** the bins whose centre lies in a bin *)
Definition centred_in (bins : list bin) (b b' : bin) : Prop := In b' bins /\ left_edge b <= centre b' < right_edge b.
