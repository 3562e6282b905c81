(** Vocabulary of the properties about when the propagation of light succeeds. *)
From Verif Require Import Base XR M_Signal M_Optics M_Light M_Bins M_Star S_Signal S_Optics S_Light.
Open Scope list_scope.
Open Scope R_scope.

(** a curve: wavelengths in order, one value each *)
Definition curve (s : sig) : Prop := nondecreasing (s_wl s) /\ one_value_per_wavelength s.
(** two different wavelengths of [s] are within 10% of the wavelengths [wl] *)
Definition overlaps (wl : list R) (s : sig) : Prop :=
  exists lo hi a b, least lo wl /\ greatest hi wl /\ In a (s_wl s) /\ In b (s_wl s) /\ a <> b
  /\ 0.9 * lo < a < 1.1 * hi /\ 0.9 * lo < b < 1.1 * hi.
(** some wavelength of [wl] is strictly between the edges of the bin *)
Definition has_pixel (b : bin) (wl : list R) : Prop := exists w, In w wl /\ left_edge b < w < right_edge b.
(** a slit of [slit] um lets light through to pixels of [delta] um with wavelengths [pix_wl]: it is at
    least one pixel wide and not wider than the detector, and every bin has a pixel in ]left, right] *)
Definition slit_fits (delta slit : R) (pix_wl : list R) (bins : list (R * R)) : Prop :=
  (exists n, pixels_in (slit / delta) n /\ (1 <= n <= length pix_wl)%nat)
  /\ forall e, In e bins -> exists w, In w pix_wl /\ fst e < w <= snd e.
