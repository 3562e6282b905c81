(** Vocabulary: complete descriptions of channels. *)
From Coq Require Import Reals.
From Verif Require Import Base PyStr XR M_Signal M_Optics M_Light M_Bins M_Psf M_Star M_Source S_Signal S_Optics S_Light S_Bins S_Star S_Success.
From Verif Require M_Noise S_Noise.
From Verif Require Import M_Table M_Observe S_Works M_Build S_Build.
Open Scope list_scope.
Open Scope R_scope.

(** A table with wavelengths and a column of numbers between 0 and 1 *)
Definition wavelengths_of (t : column_table) (x : list R) : Prop := sget "wavelength" t = Some x \/ (sget "wavelength" t = None /\ sget "Wavelength" t = Some x).
Definition unit_column (t : column_table) (k : string) : Prop := exists x y, wavelengths_of t x /\ x <> [] /\ sget k t = Some y /\ length y = length x /\ fractions y.
(** An optical element with a name, a type, transmission or reflectivity, emissivity and temperature,
    as far as given, that make sense; a slit has a width. *)
Definition sensible_element (d : descr) : Prop :=
  (exists n t, sget "value" d = Some (M_Optics.Txt n) /\ sget "type" d = Some (M_Optics.Txt t) /\ (t = "slit"%string -> exists v, says d "width" v)) /\
  (forall f, sget "temperature" d = Some f -> exists v, f = M_Optics.Num v /\ 0 < v) /\
  (forall k f, k = "solid_angle"%string \/ k = "wl_min"%string \/ k = "wl_max"%string -> sget k d = Some f -> exists v, f = M_Optics.Num v) /\
  match sget "data" d with
  | Some (Tab t) => sget "use" d = None /\ sget "wl_col_name" d = None /\ (unit_column t "Transmission" \/ (sget "Transmission" t = None /\ unit_column t "Reflectivity")) /\ unit_column t "Emissivity"
  | Some _ => False
  | None => (sget "transmission" d = None \/ sget "reflectivity" d = None) /\
            forall k f, k = "transmission"%string \/ k = "reflectivity"%string \/ k = "emissivity"%string -> sget k d = Some f -> exists v, f = M_Optics.Num v /\ 0 <= v <= 1
  end.
(** The descriptions in an optics section *)
Definition element_of (o : optics) (d : descr) : Prop :=
  match o with NoElement => False | One d' => d = d' | Several ds => exists k, In (k, d) ds end.
Definition sensible_optics (o : optics) : Prop := forall d, element_of o d -> sensible_element d.
(** [d] describes a slit of [v] um. *)
Definition slit_of (d : descr) (v : R) : Prop := sget "type" d = Some (M_Optics.Txt "slit") /\ says d "width" v.

(** The quantum efficiency: a number between 0 and 1, or a curve of such numbers which has wavelengths
    in the detector's range *)
Definition sensible_qe (name : string) (d : description) (wl : list R) : Prop :=
  match d_qe d with
  | QeValue v => 0 <= v <= 1
  | QeFile t => exists x y, wavelengths_of t x /\ sget name t = Some y /\ x <> [] /\ curve {| s_wl := x; s_data := y |} /\ fractions y /\ overlaps wl {| s_wl := x; s_data := y |}
  end.
(** What every complete description of a channel has: the detector's range in um; optics, common and
    its own, that make sense; focal ratios, not below 1/2 both; a quantum efficiency; a detector. *)
Definition complete_common (w : outer) (p : payload) (name : string) (d : description) : Prop :=
  in_um (d_from d) = Some 1 /\ in_um (d_to d) = Some 1 /\ 0 < value (d_from d) < value (d_to d) /\ (2 <= u_R w)%nat /\ 0 < d_delta d /\ 0 < d_min d < d_max d /\
  (exists o own force, p_optics p = Some o /\ d_optics d = Some own /\ o_force o = Some force /\ 0 <= o_area o /\ sensible_optics (o_elements o) /\ sensible_optics own) /\
  (exists fx fy, d_fx d = Some fx /\ d_fy d = Some fy /\ 0 < fx /\ 0 < fy /\ 1 <= 4 * fx * fy) /\
  sensible_qe name d (logspace (value (d_from d)) (value (d_to d)) (u_R w)) /\
  M_Noise.ch_name (d_detector d) = name /\ exists det, S_Noise.describes (d_detector d) det /\ S_Noise.physical det.
(** the slits in the optics of a payload and of one of its channels *)
Definition has_slit (p : payload) (d : description) (v : R) : Prop :=
  exists o e, (Some o = option_map o_elements (p_optics p) \/ Some o = d_optics d) /\ element_of o e /\ slit_of e v.
(** the point spread function is given per pixel of the detector *)
Definition in_pixel_units (d : description) : Prop := exists f, d_psf d = Some f /\ f_format f = Some "pixel_based"%string.
(** A photometer: no slit; a point spread function; an aperture, given by a radius or by an energy for
    which a radius is found *)
Definition complete_photometer (w : outer) (fuel : nat) (p : payload) (name : string) (d : description) : Prop :=
  complete_common w p name d /\ (exists s, d_class d = Some s /\ py_lower s = "photometer"%string) /\ (forall v, ~ has_slit p d v) /\
  let wl := (d_min d + d_max d) / 2 in
  exists im k a, psf_at w d wl = Ok (im, k) /\ concat im <> [] /\ nonneg (concat im) /\ d_aperture d = Some a /\
  (forall f, a_correction a = Some f -> 0 <= f) /\ (forall f, a_correction a = None -> a_ene a = Some f -> 0 <= f) /\
  ((exists r, a_radius a = Some r) \/
   (a_radius a = None /\ exists e r, a_ene a = Some e /\
      (in_pixel_units d -> find_aperture_radius (u_encircled w im 1 1 1) e fuel = Some (Ok r)) /\
      (~ in_pixel_units d -> forall fx fy, d_fx d = Some fx -> d_fy d = Some fy -> find_aperture_radius (u_encircled w im fx fy wl) e fuel = Some (Ok r)))).
(** A spectrometer: pixels from red to blue along the detector, so that their wavelengths increase;
    bins with pixels in them; sizes of windows, if prescribed; gains; slits wide and narrow enough *)
Definition complete_spectrometer (w : outer) (fuel : nat) (p : payload) (name : string) (d : description) : Prop :=
  complete_common w p name d /\ (exists s, d_class d = Some s /\ py_lower s = "spectrometer"%string) /\
  (forall v, k_spectral (d_windows d) = Some v \/ k_spatial (d_windows d) = Some v \/ k_scale (d_windows d) = Some v -> 0 <= v) /\
  (forall f x, k_radius (d_windows d) = Some f -> 0 <= f x) /\
  exists s e bins wls g, d_solution d = Some s /\ dispersion s /\
  let px := pixels s (d_min d) (d_max d) (d_delta d) in
  let pw := pixel_wl s px in
  increasing pw /\ (2 <= length pw)%nat /\
  spectrometer_table (d_targetR d) (d_min d) (d_max d) pw (pixel_width s (d_delta d) px) fuel = Some (Ok (e, bins)) /\ bins <> [] /\
  (forall b, In b bins -> 0 < centre b /\ has_pixel b pw) /\
  gain_table w d pw = Ok (wls, g) /\ (forall x, In x pw -> exists y, u_cubic w wls g x = Ok y) /\ (forall x y, u_cubic w wls g x = Ok y -> 0 <= y) /\
  forall v, has_slit p d v -> slit_fits (d_delta d) v pw (map (fun b => (left_edge b, right_edge b)) bins) /\
    let g := logspace (value (d_from d)) (value (d_to d)) (u_R w) in overlaps pw {| s_wl := g; s_data := g |}.
(** Light given at the wavelengths [wl] is in range of the channel. *)
Definition in_range (w : outer) (name : string) (d : description) (wl : list R) : Prop :=
  (let g := logspace (value (d_from d)) (value (d_to d)) (u_R w) in overlaps wl {| s_wl := g; s_data := g |}) /\
  match d_qe d with QeValue _ => True | QeFile t => forall x, wavelengths_of t x -> overlaps wl {| s_wl := x; s_data := x |} end /\
  (forall s k, d_solution d = Some s -> d_class d = Some k -> py_lower k = "spectrometer"%string -> overlaps (pixel_wl s (pixels s (d_min d) (d_max d) (d_delta d))) {| s_wl := wl; s_data := wl |}).
