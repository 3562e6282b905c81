(** Model of the propagation of the star's light: Instrument._get_efficiency and _window_function
    (models/instruments/instrument.py:343-388), Photometer.propagate_target (photometer.py:134-208)
    and Spectrometer.propagate_target (spectrometer.py:336-422).  Definitions only.  Units as in
    M_Light: um, W/m^2/um, m^2, count/s; arithmetic is exact. *)
From Verif Require Import Base XR M_Signal M_Optics M_Light M_Bins.
Open Scope list_scope.
Open Scope R_scope.

Notation column := (list (option R)).
(** A built channel: its bins, ForceChannelWlEdge of the payload (None: absent), its band, quantum
    efficiency and transmission on their own grids, the telescope area, and the column "sky TR" of
    its table, which a previous target may have left behind. *)
Record channel := {
  c_bins : list bin; c_force : option bool; c_min : R; c_max : R; c_qe : sig; c_tr : sig; c_area : R;
  c_sky : option column }.

(** _get_efficiency, instrument.py:343-372; [sky] is target.skyTransmission, None: no such
    attribute.  _get_transmission zeroes the data of the very copy of it which is rebinned
    afterwards (signal.py:117 keeps a quantity of the right unit as it is). *)
Definition get_efficiency (c : channel) (wl : list R) (sky : option sig) : res ((list R * list R) * option column) :=
  let* qe := resample wl (c_qe c) in
  let* tr := resample wl (c_tr c) in
  match sky with
  | None => Ok ((s_data qe, s_data tr), c_sky c)
  | Some s =>
      let* (t, s) := get_transmission_column (c_bins c) (c_force c) (c_min c) (c_max c) s in
      let* s := resample wl s in
      let* tr := times (s_data tr) (s_data s) in
      Ok ((s_data qe, tr), Some t)
  end.
(** transmission[idx] = wave_window[idx] = 0, photometer.py:141-153, spectrometer.py:342-354 *)
Definition force_edges (c : channel) (wl tr : list R) : res (list R * list R) :=
  let window := map (fun _ => 1) wl in
  match c_force c with
  | None => Err KeyError
  | Some false => Ok (tr, window)
  | Some true => Ok (zero_where (outside (c_min c) (c_max c)) wl tr, zero_where (outside (c_min c) (c_max c)) wl window)
  end.

(** the table a channel returns for a target, and the state of the channel's own table afterwards *)
Record star_table := { o_sky : option column; o_flux : list R; o_signal : list R; o_aperture : list R; o_max : list R }.

(** Photometer.propagate_target; [prf]: the pixels of the pixel response function *)
Definition aperture_fraction (a : option aperture) : res R :=
  match a with
  | None => Err KeyError
  | Some a => match a_correction a, a_ene a with
              | Some f, _ => Ok f
              | None, Some f => Ok f
              | None, None => Ok 1
              end
  end.
Definition propagate_photometer (c : channel) (a : option aperture) (prf : list R) (star : sig) (sky : option sig) : res (star_table * option column) :=
  let wl := s_wl star in
  let* (e, t) := get_efficiency c wl sky in
  let* (tr, window) := force_edges c wl (snd (e : list R * list R)) in
  let* f := times window (s_data star) in
  let flux := trapz wl f in
  let* x := times (fst (e : list R * list R)) (s_data star) in
  let* x := times x tr in
  let* x := times x (map photons_per_joule wl) in
  let signal := c_area c * trapz wl x in
  let* fraction := aperture_fraction a in
  let* peak := array_max prf in
  Ok ({| o_sky := t; o_flux := [flux]; o_signal := [signal]; o_aperture := [signal * fraction]; o_max := [peak * signal] |}, t).

(** _window_function, instrument.py:377-388 *)
Definition in_window_of (b : bin) (w : R) : bool := negb (Rltb w (left_edge b)) && Rltb w (right_edge b).
Definition window_function (bins : list bin) (wl : list R) : list (list R) :=
  map (fun b => map (fun w => if in_window_of b w then 1 else 0) wl) bins.
(** spectrometer.py:404-415 *)
Definition in_pixel_bin (b : bin) (w : R) : bool := Rltb (left_edge b) w && Rltb w (right_edge b).
(** Spectrometer.propagate_target; pixels and their widths in um; [gain]: the cubic interpolation of
    the gain, which fails outside its table *)
Definition propagate_spectrometer (c : channel) (pix_wl pix_width : list R) (gain : R -> res R) (star : sig) (sky : option sig) : res (star_table * option column) :=
  let wl := s_wl star in
  let* (e, t) := get_efficiency c wl sky in
  let* (tr, window) := force_edges c wl (snd (e : list R * list R)) in
  let* x := times (scaled (c_area c) tr) (fst (e : list R * list R)) in
  let* x := times x (s_data star) in
  let* density := times x (map photons_per_joule wl) in
  let* f := times window (s_data star) in
  let* flux := mapM (fun m => let* y := times f m in Ok (trapz wl y)) (window_function (c_bins c) wl) in
  let* signal := mapM (fun m => let* y := times density m in Ok (trapz wl y)) (window_function (c_bins c) wl) in
  let* d := resample pix_wl {| s_wl := wl; s_data := density |} in
  let* g := mapM gain pix_wl in
  let* x := times (s_data d) pix_width in
  let* inpix := times x g in
  let* mx := mapM (fun b => array_max (map snd (filter (fun p => in_pixel_bin b (fst p)) (combine pix_wl inpix)))) (c_bins c) in
  Ok ({| o_sky := t; o_flux := flux; o_signal := signal; o_aperture := signal; o_max := mx |}, t).

(** A channel through a history of targets: its table keeps the column "sky TR" *)
Definition with_sky (c : channel) (t : option column) : channel :=
  {| c_bins := c_bins c; c_force := c_force c; c_min := c_min c; c_max := c_max c; c_qe := c_qe c; c_tr := c_tr c; c_area := c_area c; c_sky := t |}.
Fixpoint observe (propagate : channel -> sig -> option sig -> res (star_table * option column)) (c : channel) (targets : list (sig * option sig)) : res (list star_table) :=
  match targets with
  | [] => Ok []
  | (star, sky) :: l =>
      let* (out, t) := propagate c star sky in
      let* rest := observe propagate (with_sky c t) l in
      Ok (out :: rest)
  end.
