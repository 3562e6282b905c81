(** Vocabulary of the properties about the light of the star. *)
From Verif Require Import Base XR M_Signal M_Optics M_Light M_Bins M_Star S_Signal S_Optics S_Light S_Bins.
Open Scope list_scope.
Open Scope R_scope.

(** 1 in the band of a channel or when the band is not forced, else 0 *)
Definition passes (force : bool) (wl_min wl_max w : R) : R :=
  if force then (if Rlt_dec w wl_min then 0 else if Rlt_dec wl_max w then 0 else 1) else 1.
(** 1 for wavelengths in [lo, hi[, else 0 *)
Definition within (lo hi w : R) : R := if Rle_dec lo w then (if Rlt_dec w hi then 1 else 0) else 0.
(** detected photons per second and um at the i-th wavelength *)
Definition detected (area : R) (qe tr star wl : list R) (i : nat) : R :=
  area * (at_ i star * photons (at_ i wl)) * (at_ i qe * at_ i tr).
(** the star's flux at the i-th wavelength as the channel counts it *)
Definition counted (c : channel) (force : bool) (star : sig) (i : nat) : R := at_ i (s_data star) * passes force (c_min c) (c_max c) (at_ i (s_wl star)).
(** [e] is the curve [s] on the wavelengths [wl] *)
Definition on (wl : list R) (s : sig) (e : list R) : Prop := resample wl s = Ok {| s_wl := wl; s_data := e |}.
(** A source: positive increasing wavelengths, one value each *)
Definition source_ (star : sig) : Prop := wavelength_grid (s_wl star) /\ one_value_per_wavelength star.
(** a sky transmission given on the wavelengths of the star *)
Definition sky_on (star : sig) (sky : option sig) : Prop :=
  match sky with None => True | Some s => s_wl s = s_wl star /\ one_value_per_wavelength s end.
(** the sky transmission at the i-th wavelength: 1 without any *)
Definition sky_at (sky : option sig) (i : nat) : R := match sky with None => 1 | Some s => at_ i (s_data s) end.
