(** Model of the spectral bins of the channels: Photometer._wavelength_table
    (models/instruments/photometer.py:18-36), Spectrometer._wavelength_table and the pixel and
    window part of Spectrometer.builder (spectrometer.py:25-185, 251-333), Photometer._windows_size
    (photometer.py:90-132), and the binned columns of Instrument (instrument.py:240-341).
    Definitions only.  Wavelengths are in um; arithmetic is exact. *)
From Verif Require Import Base XR M_Signal M_Optics M_Light.
Open Scope list_scope.
Open Scope R_scope.

(** ** Bins *)
(** one row of the channel table, photometer.py:29-35, spectrometer.py:98-107 *)
Record bin := { centre : R; width : R; left_edge : R; right_edge : R }.
Definition bin_at (c w : R) : bin :=
  {| centre := c; width := w; left_edge := c - 0.5 * w; right_edge := c + 0.5 * w |}.
(** Photometer._wavelength_table, photometer.py:18-36 *)
Definition photometer_table (wl_min wl_max : R) : list bin :=
  [bin_at (0.5 * (wl_min + wl_max)) (wl_max - wl_min)].

(** wl_bin_c and wl_bin_width from edges, spectrometer.py:66-67, 88-93 *)
Fixpoint between (e : list R) : list bin :=
  match e with
  | a :: ((b :: _) as e') => bin_at (0.5 * (a + b)) (b - a) :: between e'
  | _ => []
  end.
(** targetR == "native", spectrometer.py:39-48.  np.argsort need not be stable, sort_src is. *)
Definition native_table (pix_wl pix_width : list R) : res (list R * list bin) :=
  let s := sort_src (combine pix_wl pix_width) in
  match s with
  | [] => Err IndexError
  | p :: _ => let (c, w) := last s p in
              Ok (map (fun q => fst q - 0.5 * snd q) s ++ [c + 0.5 * w], map (fun q => bin_at (fst q) (snd q)) s)
  end.
(** a number as targetR, spectrometer.py:50-67 *)
Definition Rceil (x : R) : Z := (- Rfloor (- x))%Z.
Definition fixed_table (wl_min wl_max r : R) : list R * list bin :=
  let n := Z.to_nat (Rceil (ln (wl_max / wl_min) / ln (1 + 1 / r)) + 1) in
  let e := map (fun k => wl_min * (1 + 1 / r) ^ k) (seq 0 n) in
  (e, between e).

(** ** A table of resolutions as targetR, spectrometer.py:69-93 *)
(** np.round(x, 4): half to even *)
Definition rint (x : R) : Z :=
  let f := Rfloor x in
  if Rlt_dec (x - IZR f) 0.5 then f
  else if Rlt_dec 0.5 (x - IZR f) then (f + 1)%Z
  else if Z.even f then f else (f + 1)%Z.
Definition round4 (x : R) : R := IZR (rint (x * 10 ^ 4)) / 10 ^ 4.
(** get_res = interp1d(W, R): ValueError outside the table *)
Definition interp_within (src : list (R * R)) (w : R) : res R :=
  match src with
  | [] => Err ValueError
  | p :: l => if Rltb w (rmin (fst p) (map fst l)) || Rltb (rmax (fst p) (map fst l)) w then Err ValueError
              else Ok (interp (sort_src src) w)
  end.
(** w2 = np.round(w1 + w1 / res, 4); a resolution of 0 gives an infinite edge, which is not
    modelled (OtherError) *)
Definition next_edge (src : list (R * R)) (w1 : R) : res R :=
  let* r := interp_within src w1 in
  if Req_EM_T r 0 then Err OtherError else Ok (round4 (w1 + w1 / r)).
(** while w2 < wl_max: the edges after [w2]; None: not finished after [fuel] rounds *)
Fixpoint walk (src : list (R * R)) (wl_max : R) (fuel : nat) (w2 : R) : option (res (list R)) :=
  if Rltb w2 wl_max then
    match fuel with
    | O => None
    | S k => match next_edge src w2 with
             | Err e => Some (Err e)
             | Ok w => match walk src wl_max k w with
                       | Some (Ok l) => Some (Ok (w :: l))
                       | o => o
                       end
             end
    end
  else Some (Ok []).
(** remove small bin at end of channel, spectrometer.py:82-87 *)
Definition merge_last (wl_max : R) (e : list R) : res (list R) :=
  match rev e with
  | _ :: b :: c :: r => if Rltb (wl_max - b) ((b - c) / 2) then Ok (rev (wl_max :: c :: r)) else Ok e
  | _ => Err IndexError
  end.
Definition variable_table (t : column_table) (wl_min wl_max : R) (fuel : nat) : option (res (list R * list bin)) :=
  match (let* w := col t "W" in let* r := col t "R" in
         if Nat.eqb (length w) (length r) then Ok (combine w r) else Err ValueError) with
  | Err e => Some (Err e)
  | Ok src => match walk src wl_max fuel wl_min with
              | None => None
              | Some (Err e) => Some (Err e)
              | Some (Ok l) => Some (let* e := merge_last wl_max (wl_min :: l) in Ok (e, between e))
              end
  end.

(** Spectrometer._wavelength_table, spectrometer.py:25-109.  targetR: missing, "native", a number,
    a table, or neither value nor data. *)
Inductive target_r := Native | FixedR (r : R) | TableR (t : column_table) | Unsupported.
Definition spectrometer_table (tr : option target_r) (wl_min wl_max : R) (pix_wl pix_width : list R) (fuel : nat) : option (res (list R * list bin)) :=
  match tr with
  | None | Some Native => Some (native_table pix_wl pix_width)
  | Some (FixedR r) => Some (Ok (fixed_table wl_min wl_max r))
  | Some (TableR t) => variable_table t wl_min wl_max fuel
  | Some Unsupported => Some (Err KeyError)
  end.

(** ** Pixels, spectrometer.py:114-181 *)
(** interp1d(x, y, fill_value="extrapolate"): the line through two neighbours; a sorted source of
    at least two points *)
Definition line (a b : R * R) (w : R) : R := (snd b - snd a) / (fst b - fst a) * (w - fst a) + snd a.
Fixpoint extrapolate (l : list (R * R)) (w : R) : R :=
  match l with
  | a :: ((b :: r) as l') => match r with
                             | [] => line a b w
                             | _ => if Rltb (fst b) w then extrapolate l' w else line a b w
                             end
  | a :: _ => snd a
  | [] => 0
  end.
Definition interpolator (x y : list R) : R -> R := extrapolate (sort_src (combine x y)).
(** the wavelength solution: columns Wavelength and x of the data, in um *)
Record solution := { sol_wl : list R; sol_x : list R }.
Definition wl_of (s : solution) : R -> R := interpolator (sol_x s) (sol_wl s).
Definition x_of (s : solution) : R -> R := interpolator (sol_wl s) (sol_x s).
(** np.arange(a, b, d) *)
Definition arange (a b d : R) : list R := map (fun k => a + INR k * d) (seq 0 (Z.to_nat (Rceil ((b - a) / d)))).
(** coord_pix_center, spectrometer.py:142-166 *)
Definition pixels (s : solution) (wl_min wl_max delta : R) : list R :=
  let a := x_of s wl_min in
  let b := x_of s wl_max in
  let (a, b) := if Rltb b a then (b, a) else (a, b) in
  rev (arange a b delta).
(** wl_pix_center and pixel_bandwidth, 167-181 *)
Definition pixel_wl (s : solution) (px : list R) : list R := map (wl_of s) px.
Definition pixel_width (s : solution) (delta : R) (px : list R) : list R :=
  map (fun x => Rabs (wl_of s (x - 0.5 * delta) - wl_of s (x + 0.5 * delta))) px.

(** ** Windows, spectrometer.py:251-333 *)
Fixpoint spectral_widths (x : R -> R) (delta : R) (e : list R) : list R :=
  match e with
  | a :: ((b :: _) as e') => Rabs (x b - x a) / delta :: spectral_widths x delta e'
  | _ => []
  end.
(** the optional keys: EncESolution (as its interpolation), window_spatial_scale,
    window_spatial_pixel, window_spectral_pixel *)
Record window_keys := { k_radius : option (R -> R); k_scale : option R; k_spatial : option R; k_spectral : option R }.
Definition spatial_widths (k : window_keys) (fnum_y delta : R) (bins : list bin) : list R :=
  match k_spatial k with
  | Some v => map (fun _ => v) bins
  | None => map (fun b => 2 * (match k_radius k with Some f => f (centre b) | None => 1.22 end) * fnum_y * centre b / delta
                          * (match k_scale k with Some v => v | None => 1 end)) bins
  end.
Definition spectral_windows (k : window_keys) (x : R -> R) (delta : R) (edges : list R) (bins : list bin) : list R :=
  match k_spectral k with
  | Some v => map (fun _ => v) bins
  | None => spectral_widths x delta edges
  end.
(** window_size_px; edges and bins come from the same table *)
Definition spectrometer_windows (k : window_keys) (x : R -> R) (fnum_y delta : R) (edges : list R) (bins : list bin) : res (list R) :=
  times (spectral_windows k x delta edges bins) (spatial_widths k fnum_y delta bins).

(** Photometer._windows_size, photometer.py:90-132: radius, or encircled energy with the radius
    found by find_aperture_radius, here [found]; None: no aperture section *)
Record aperture := { a_radius : option R; a_ene : option R; a_correction : option R }.
Definition photometer_window (a : option aperture) (pixel_based : bool) (found : R -> res R) (fx fy wl delta : R) : res R :=
  match a with
  | None => Err KeyError
  | Some a =>
      match a_radius a, a_ene a with
      | Some r, _ => if pixel_based then Ok (r ^ 2) else Ok (r ^ 2 * fx * wl * fy * wl / delta ^ 2)
      | None, Some e => let* r := found e in
                        if pixel_based then Ok (PI * r ^ 2) else Ok (PI * r ^ 2 * fx * wl * fy * wl / delta ^ 2)
      | None, None => Err UnboundLocalError
      end
  end.

(** ** Binned columns *)
(** _bin_signal, instrument.py:240-245, on the centres of the bins; the mean of nothing is NaN *)
Definition bin_signal (bins : list bin) (signal : list R) : list (option R) :=
  map (fun b => mean (map snd (filter (fun p => negb (Rltb (fst p) (left_edge b)) && Rltb (fst p) (right_edge b))
                                      (combine (map centre bins) signal)))) bins.
(** outside the channel, instrument.py:266-287 *)
Definition outside (wl_min wl_max w : R) : bool := Rltb w wl_min || Rltb wl_max w.
(** _get_transmission, instrument.py:247-292; [force] is ForceChannelWlEdge, None: absent *)
Definition get_transmission_column (bins : list bin) (force : option bool) (wl_min wl_max : R) (tr : sig) : res (list (option R) * sig) :=
  let* y := interp1d (s_wl tr) (s_data tr) (map centre bins) in
  let t := bin_signal bins y in
  match force with
  | None => Err KeyError
  | Some false => Ok (t, tr)
  | Some true => Ok (map (fun p => if outside wl_min wl_max (centre (fst p)) then Some 0 else snd p) (combine bins t),
                     {| s_wl := s_wl tr; s_data := zero_where (outside wl_min wl_max) (s_wl tr) (s_data tr) |})
  end.
(** np.logspace(log10 a, log10 b, n) *)
Definition logspace (a b : R) (n : nat) : list R :=
  map (fun k => a * Rpower (b / a) (INR k / INR (n - 1))) (seq 0 n).
(** _get_qe, instrument.py:294-341: the table of the data file, with one column per channel, or a
    number on the detector's range [lo, hi] *)
Inductive qe_description := QeFile (t : column_table) | QeValue (v : R).
Definition get_qe (name : string) (q : qe_description) (lo hi : R) (n : nat) (bins : list bin) : res (list (option R) * sig) :=
  let* s := match q with
            | QeFile t => let* w := (if smem "wavelength" t then Ok "wavelength"%string
                                     else if smem "Wavelength" t then Ok "Wavelength"%string else Err ValueError) in
                          let* x := col t w in
                          let* y := col t name in
                          Ok {| s_wl := x; s_data := y |}
            | QeValue v => let g := logspace lo hi n in Ok {| s_wl := g; s_data := map (fun _ => v * 1) g |}
            end in
  let* y := interp1d (s_wl s) (s_data s) (map centre bins) in
  Ok (bin_signal bins y, s).
