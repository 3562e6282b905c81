(** Vocabulary: wavelengths at which the light of the star is counted (C125). *)
From Coq Require Import Reals.
From Verif Require Import Base PyStr XR M_Signal M_Optics M_Light M_Bins M_Psf M_Star M_Source S_Signal S_Optics S_Light S_Bins S_Star S_Success.
From Verif Require Import M_Table M_Observe S_Works M_Build S_Build S_Ready.
Open Scope list_scope.
Open Scope R_scope.

(** [w], a wavelength inside the grid [wl], is reached by a curve given at the wavelengths [g]: the curve
    is given, not more than 10% off the grid, on both sides of the neighbours of [w]; between there
    everything given satisfies [P]. *)
Definition reached (P : R -> Prop) (g wl : list R) (w : R) : Prop :=
  exists lo hi u v p q, least lo wl /\ greatest hi wl /\ neighbours wl u w /\ neighbours wl w v /\
  In p g /\ In q g /\ 0.9 * lo < p <= u /\ v <= q < 1.1 * hi /\ forall z, In z g -> p <= z <= q -> P z.

(** An optical element that blocks no light from [lo] to [hi] *)
Definition clear_element (lo hi : R) (d : descr) : Prop :=
  match sget "data" d with
  | Some (Tab t) => forall x y, wavelengths_of t x -> sget "Transmission" t = Some y \/ (sget "Transmission" t = None /\ sget "Reflectivity" t = Some y) ->
      (forall v, In v y -> 0 < v) /\ (exists a, In a x /\ a <= lo) /\ (exists b, In b x /\ hi <= b)
  | _ => (forall k v, k = "transmission"%string \/ k = "reflectivity"%string -> sget k d = Some (M_Optics.Num v) -> 0 < v) /\
         (forall v, sget "wl_min" d = Some (M_Optics.Num v) -> v <= lo) /\ (forall v, sget "wl_max" d = Some (M_Optics.Num v) -> hi <= v)
  end.
(** All optics in front of the detector are clear, and there is a mirror to gather light. *)
Definition clear_optics (p : payload) (d : description) : Prop :=
  (forall o, p_optics p = Some o -> 0 < o_area o) /\
  forall o e, Some o = option_map o_elements (p_optics p) \/ Some o = d_optics d -> element_of o e -> clear_element (value (d_from d)) (value (d_to d)) e.
(** Light of wavelength [x], one of the wavelengths [wl], is counted by the channel: its quantum
    efficiency is positive around it, and it is inside the channel's band. *)
Definition counted_at (w : outer) (name : string) (d : description) (wl : list R) (x : R) : Prop :=
  let g := logspace (value (d_from d)) (value (d_to d)) (u_R w) in
  reached (fun z => d_min d <= z <= d_max d) g wl x /\
  match d_qe d with
  | QeValue v => 0 < v
  | QeFile t => forall xs ys, wavelengths_of t xs -> sget name t = Some ys -> increasing xs /\ (forall y, In y ys -> 0 < y) /\ reached (fun _ => True) xs wl x
  end.
(** some pixel of the image of a star gets light *)
Definition some_light (im : image) : Prop := exists row v, In row im /\ In v row /\ 0 < v.
(** A photometer that sees a star given at the wavelengths [wl] *)
Definition photometer_sees (w : outer) (name : string) (d : description) (wl : list R) : Prop :=
  (exists x, counted_at w name d wl x) /\ forall im k, psf_at w d ((d_min d + d_max d) / 2) = Ok (im, k) -> some_light im.
(** A spectrometer that sees it in one of its pixels, which belongs to a bin and has a positive gain *)
Definition spectrometer_sees (w : outer) (fuel : nat) (name : string) (d : description) (wl : list R) : Prop :=
  forall s, d_solution d = Some s ->
  let px := pixels s (d_min d) (d_max d) (d_delta d) in
  let pw := pixel_wl s px in
  exists x, reached (counted_at w name d wl) wl pw x /\
  (forall wls g y, gain_table w d pw = Ok (wls, g) -> u_cubic w wls g x = Ok y -> 0 < y) /\
  forall e bins, spectrometer_table (d_targetR d) (d_min d) (d_max d) pw (pixel_width s (d_delta d) px) fuel = Some (Ok (e, bins)) -> exists b, In b bins /\ left_edge b < x < right_edge b.
Definition sees (w : outer) (fuel : nat) (name : string) (d : description) (wl : list R) : Prop :=
  (forall k, d_class d = Some k -> py_lower k = "photometer"%string -> photometer_sees w name d wl) /\
  (forall k, d_class d = Some k -> py_lower k = "spectrometer"%string -> spectrometer_sees w fuel name d wl).
(** some of the light is inside the aperture *)
Definition open_aperture (d : description) : Prop :=
  forall a, d_aperture d = Some a -> (forall f, a_correction a = Some f -> 0 < f) /\ (forall f, a_correction a = None -> a_ene a = Some f -> 0 < f).
(** the sky blocks nothing completely *)
Definition sky_open (s : setting) (x : target) : Prop := forall g sk v, foregrounds_of s (x_sky x) = Ok g -> M_Foreground.g_sky g = Some sk -> In v (s_data sk) -> 0 < v.
