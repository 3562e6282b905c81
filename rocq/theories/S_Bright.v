(** Specification vocabulary: brighter and fainter stars (C115). *)
From Coq Require Import Reals.
From Verif Require Import Base XR M_Source M_Foreground M_Table M_Observe S_Source.
Open Scope list_scope.

(** The columns reporting the star's light *)
Definition star_column (k : string) : Prop := In k ["starFlux"; "starSignal"; "star_signal_inAperture"; "star_MaxSignal_inPixel"]%string.
(** The same target at the distance [D] *)
Definition at_distance (x : target) (D : R) : target :=
  {| x_name := x_name x; x_stellar := with_D (x_stellar x) D; x_star_name := x_star_name x; x_magk := x_magk x; x_sky := x_sky x; x_table := x_table x; x_source := x_source x; x_header := x_header x |}.
Definition with_radius (x : target) (r : R) : target :=
  {| x_name := x_name x; x_stellar := with_R (x_stellar x) r; x_star_name := x_star_name x; x_magk := x_magk x; x_sky := x_sky x; x_table := x_table x; x_source := x_source x; x_header := x_header x |}.
(** Noise [b] is at least noise [a]; undefined for both, or for none. *)
Definition no_better (a b : xr) : Prop := match a, b with NaN, NaN => True | Fin p, Fin r => (p <= r)%R | _, _ => False end.

(** Telescopes of different area (C117) *)
(** The columns counting the photons of the star; starFlux is not among them. *)
Definition photon_column (k : string) : Prop := In k ["starSignal"; "star_signal_inAperture"; "star_MaxSignal_inPixel"]%string.
