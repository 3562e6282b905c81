(** Model of exorad/utils/diffuse_light_propagation.py, OpticalPath.compute_signal
    (models/optics/opticalPath.py:283-362), Instrument.propagate_diffuse_foreground
    (models/instruments/instrument.py:170-238).  Definitions only.
    Numbers are reals in the units the code converts to (um, m^2, sr, count/s); unit bookkeeping
    itself is not modelled here. *)
From Verif Require Import Base XR M_Signal M_Optics.
Open Scope list_scope.
Open Scope R_scope.

(** a Signal without time axis: wavelengths in um, one number per wavelength *)
Record sig := { s_wl : list R; s_data : list R }.
Definition um_ : unit_ := micron.
(** Signal.spectral_rebin, signal.py:153-160.  A signal whose data has not the length of its grid
    (only possible after rebinning onto a grid with repeated points) fails later on in several
    ways; here it fails at once, with OtherError. *)
Definition resample (wl : list R) (s : sig) : res sig :=
  if Nat.eqb (length (s_wl s)) (length (s_data s)) then
    let* (_, y) := spectral_rebin um_ um_ (map Some wl) (combine (map Some (s_wl s)) (s_data s)) in
    Ok {| s_wl := wl; s_data := y |}
  else Err OtherError.
(** arrays multiplied entry by entry: ValueError unless the lengths agree (operands of length one
    do not occur) *)
Definition times (a b : list R) : res (list R) :=
  if Nat.eqb (length a) (length b) then Ok (mul a b) else Err ValueError.
Definition scaled (k : R) (a : list R) : list R := map (fun x => x * k) a.
(** np.trapz(y, x=x) *)
Fixpoint trapz (x y : list R) : R :=
  match x, y with
  | a :: ((b :: _) as x'), p :: ((q :: _) as y') => (b - a) * (q + p) / 2 + trapz x' y'
  | _, _ => 0
  end.

(** (wl / const.c / const.h).to(1 / W / s): photons per joule, wavelength in um *)
Definition speed_of_light : R := 299792458.
Definition planck_constant : R := 662607015 / 10 ^ 42.
Definition photons_per_joule (w : R) : R := w / 10 ^ 6 / speed_of_light / planck_constant.

(** what a built channel provides: the slit width, the pixel wavelengths and their widths (present
    for spectrometers only), the widths and sizes of the windows per bin, quantum efficiency and
    transmission on their own grids; the pixel size is in um *)
Record built := {
  b_slit : option R; b_pix_wl : option (list R); b_pix_width : option (list R);
  b_spatial : option (list R); b_size : list R; b_qe : sig; b_tr : sig; b_delta : R; b_omega : R }.
(** the bins of a channel table: left and right edges *)
Notation binlist := (list (R * R)).
(** the area of a pixel in m^2, diffuse_light_propagation.py:25-29 *)
Definition pixel_area (b : built) : R := (b_delta b * b_delta b) / 10 ^ 12.

(** ** convolve_with_slit, diffuse_light_propagation.py:56-114 *)
Definition lookup {V} (o : option V) : res V := match o with Some v => Ok v | None => Err KeyError end.
(** np.ones(int(x)): the number of ones; 0 when x < 1 (a negative number is refused by np.ones and
    none by np.convolve, both with ValueError) *)
Definition whole_pixels (x : R) : nat := Z.to_nat (Rfloor x).
(** np.convolve(a, np.ones(n), "same") *)
Definition convolve_same (a : list R) (n : nat) : res (list R) :=
  match a, n with
  | [], _ | _, O => Err ValueError
  | _, _ =>
      let start := ((Nat.min (length a) n - 1) / 2)%nat in
      Ok (map (fun i => rsum (map snd (filter (fun p => Nat.leb (fst p) (i + start) && Nat.ltb (i + start) (fst p + n))
                                              (combine (seq 0 (length a)) a))))
              (seq 0 (Nat.max (length a) n)))
  end.
(** signal_tmp[mask] *)
Definition select (mask : list bool) (l : list R) : res (list R) :=
  if Nat.eqb (length mask) (length l) then Ok (map snd (filter fst (combine mask l))) else Err IndexError.
Definition in_slit_bin (e : R * R) (w : R) : bool := Rltb (fst e) w && negb (Rltb (snd e) w).
(** array.max() *)
Definition array_max (l : list R) : res R := match l with [] => Err ValueError | x :: l' => Ok (rmax x l') end.

Definition convolve_with_slit (b : built) (bins : binlist) (slit : R) (qe radiance : sig) : res (list R * list R) :=
  let* wl := lookup (b_pix_wl b) in
  let* dwl := lookup (b_pix_width b) in
  let* rad := resample wl radiance in
  let* q := interp1d (s_wl qe) (s_data qe) wl in
  let* x := times (s_data rad) (scaled (b_omega b * pixel_area b) (mul q (map photons_per_joule wl))) in
  let* x := times x dwl in
  let* tmp := convolve_same x (whole_pixels (slit / b_delta b)) in
  let* parts := mapM (fun e => select (map (in_slit_bin e) wl) tmp) bins in
  let* widths := lookup (b_spatial b) in
  let signal := mul (map rsum parts) widths in
  let* max_signal := mapM array_max parts in
  Ok (max_signal, signal).

(** integrate_light, diffuse_light_propagation.py:117-126 *)
Definition integrate_light (b : built) (data wl : list R) : list R * list R :=
  let s := trapz wl data in
  (map (fun _ => s * 1) (b_size b), map (fun w => s * w) (b_size b)).

(** ** compute_signal, opticalPath.py:283-362 *)
(** the solid angle, opticalPath.py:333-345; no radiance ever has the attribute "angle", chain
    (opticalPath.py:243-281) never sets it *)
Definition solid_angle (b : built) (p : position) : R :=
  match p with Detector => PI | OpticsBox => PI - b_omega b | Path => b_omega b end.
(** one element: its light (max per pixel, signal) and the rebinned quantum efficiency *)
Definition element_light (b : built) (bins : binlist) (wl : list R) (qe : sig) (r : radiance) : res ((list R * list R) * sig) :=
  let* qe := resample wl qe in
  match r_slit r, b_slit b with
  | true, Some slit =>
      let* out := convolve_with_slit b bins slit qe {| s_wl := wl; s_data := r_data r |} in
      Ok (out, qe)
  | _, _ =>
      let* x := times (r_data r) (scaled (pixel_area b) (mul (s_data qe) (map photons_per_joule (s_wl qe)))) in
      Ok (integrate_light b (scaled (solid_angle b (r_pos r)) x) wl, qe)
  end.
Definition plus (a b : list R) : res (list R) :=
  if Nat.eqb (length a) (length b) then Ok (map (fun p => fst p + snd p) (combine a b)) else Err ValueError.
Record emission := { by_element : sdict (list R * list R); total_max : list R; total_signal : list R }.
Fixpoint sum_light (b : built) (bins : binlist) (wl : list R) (qe : sig) (rads : sdict radiance) (out : emission) : res emission :=
  match rads with
  | [] => Ok out
  | (k, r) :: rads' =>
      let* (light, qe) := element_light b bins wl qe r in
      let* t := plus (total_signal out) (snd light) in
      let* m := plus (total_max out) (fst light) in
      sum_light b bins wl qe rads' {| by_element := sset k light (by_element out); total_max := m; total_signal := t |}
  end.
Definition compute_signal (b : built) (bins : binlist) (wl : list R) (rads : sdict radiance) : res emission :=
  sum_light b bins wl (b_qe b) rads {| by_element := []; total_max := map (fun _ => 0) bins; total_signal := map (fun _ => 0) bins |}.

(** ** propagate_diffuse_foreground, instrument.py:170-238 *)
(** an entry of target.foreground: the radiance and, for sky filters, the attribute transmission *)
Record foreground := { f_light : sig; f_transmission : option (list R) }.
(** The test hasattr(frg, "transmission"), instrument.py:192, is on the name of the foreground, a
    string, and always false. *)
Definition attenuate (transmission : sig) (f : foreground) : res (sig * sig) :=
  let* tr := resample (s_wl (f_light f)) transmission in
  let* x := times (s_data (f_light f)) (s_data tr) in
  Ok ({| s_wl := s_wl (f_light f); s_data := x |}, tr).
Definition foreground_light (b : built) (bins : binlist) (tr qe : sig) (f : foreground) : res ((list R * list R) * sig * sig) :=
  let* (rad, tr) := attenuate tr f in
  match b_slit b with
  | Some slit => let* out := convolve_with_slit b bins slit qe rad in Ok (out, tr, qe)
  | None =>
      let* qe := resample (s_wl rad) qe in
      let* x := times (s_data rad) (scaled (b_omega b * pixel_area b) (mul (s_data qe) (map photons_per_joule (s_wl qe)))) in
      Ok (integrate_light b x (s_wl rad), tr, qe)
  end.
Fixpoint foregrounds_light (b : built) (bins : binlist) (tr qe : sig) (fs : list (string * foreground)) (out : sdict (list R)) : res (sdict (list R)) :=
  match fs with
  | [] => Ok out
  | (k, f) :: fs' =>
      let* (lt, qe) := foreground_light b bins tr qe f in
      let (light, tr) := (lt : (list R * list R) * sig) in
      foregrounds_light b bins tr qe fs'
        (sset (k ++ "_MaxSignal_inPixel")%string (fst light) (sset (k ++ "_signal")%string (snd light) out))
  end.
(** [fs] is None when the target has no attribute foreground *)
Definition propagate_diffuse_foreground (b : built) (bins : binlist) (fs : option (sdict foreground)) : res (sdict (list R)) :=
  match fs with
  | None => Err AttributeError
  | Some fs => foregrounds_light b bins (b_tr b) (b_qe b) (rev fs) []
  end.
