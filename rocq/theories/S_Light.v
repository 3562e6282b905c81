(** Vocabulary of the properties about diffuse light. *)
From Verif Require Import Base XR M_Signal M_Optics M_Light S_Signal S_Optics.
Open Scope list_scope.
Open Scope R_scope.

Definition total (l : list R) : R := fold_right Rplus 0 l.
(** the sum of g 0, ..., g (n-1) *)
Definition sum_below (n : nat) (g : nat -> R) : R := total (map g (seq 0 n)).
(** the trapezium rule *)
Definition trapezia (x : list R) (y : nat -> R) : R :=
  sum_below (length x - 1) (fun i => (at_ (S i) x - at_ i x) * (y i + y (S i)) / 2).
(** wavelengths as the program builds them: positive and strictly increasing, at least two *)
Definition wavelength_grid (wl : list R) : Prop := increasing wl /\ (2 <= length wl)%nat /\ forall w, In w wl -> 0 < w.
Definition one_value_per_wavelength (s : sig) : Prop := length (s_data s) = length (s_wl s).
Definition nonneg (l : list R) : Prop := forall x, In x l -> 0 <= x.
(** photons per joule of light of wavelength [w] um *)
Definition photons (w : R) : R := w * 10 ^ 36 / (299792458 * 662607015).
(** counts per second, sr and um at the i-th wavelength in a pixel of [delta] um *)
Definition counts_per_um_sr (delta : R) (light qe wl : list R) (i : nat) : R :=
  at_ i light * (delta * delta / 10 ^ 12) * at_ i qe * photons (at_ i wl).
(** the solid angle from which the light of an element reaches a pixel seeing [omega] sr *)
Definition angle_for (p : position) (omega : R) : R :=
  match p with Detector => PI | OpticsBox => PI - omega | Path => omega end.
(** the light of this element is spread by the slit *)
Definition behind_slit (b : built) (r : radiance) : Prop := r_slit r = true /\ b_slit b <> None.

(** ** The slit *)
(** pixel [j] contributes to pixel [i] through a slit of [n] pixels *)
Definition reaches (n i j : nat) : bool := Nat.leb i (j + n / 2) && Nat.ltb (j + n / 2) (i + n).
(** the light of the i-th bin: the pixels with wavelengths in ]left, right] *)
Definition in_bin_right (e : R * R) (w : R) : bool :=
  (if Rlt_dec (fst e) w then true else false) && (if Rle_dec w (snd e) then true else false).
(** bins without gaps and overlaps *)
Definition contiguous (bins : list (R * R)) : Prop :=
  (forall e, In e bins -> fst e <= snd e) /\ forall e e', neighbours bins e e' -> snd e = fst e'.
(** the number of whole pixels in a slit *)
Definition pixels_in (x : R) (n : nat) : Prop := INR n <= x < INR n + 1.
