(** Model of tasks/foregroundHandler.py (EstimateZodi 31-66, EstimateForeground 88-126,
    EstimateForegrounds 148-187), models/foregrounds/skyForegrounds.py (SkyForeground 21-55) and
    models/foregrounds/zodiacalForeground.py (ZodiacalFrg 32-132).  Definitions only.
    Wavelengths are in um, radiances in W/m^2/sr/um, angles in degrees; arithmetic is exact.
    What a failing call leaves behind in the target is not modelled. *)
From Verif Require Import Base XR M_Signal M_Optics M_Light M_Bins M_Psf M_Source.
Open Scope list_scope.
Open Scope R_scope.

(** ** The target: the coordinates in target.star ("ra" present or not, then "dec"), the attributes
    foreground and skyTransmission, if there are *)
(** a coordinate: a quantity, or a bare number *)
Inductive coordinate := Degrees (x : R) | Number (x : R).
Record tgt := {
  g_ra : option coordinate; g_dec : option coordinate;
  g_foreground : option (sdict foreground); g_sky : option sig }.

(** the working grid, foregroundHandler.py:43-50 and 100-107; [n] is PassVal.working_R.  Bare numbers
    have no method "to". *)
Definition working_grid (n : nat) (a b : wavelength) : res (list R) :=
  match in_um a, in_um b with
  | Some _, Some _ => Ok (logspace (um_of a) (um_of b) n)
  | _, _ => Err AttributeError
  end.

(** ** SkyForeground *)
(** the table in description["data"]: columns with the size of their unit in um (wavelengths) or
    W/m^2/sr/um (radiances), None for a column without a unit *)
Record column := { c_values : list R; c_unit : option R }.
Definition sky_table := sdict column.
(** the description of a foreground that is not zodiacal light; units of the wrong dimension are not
    modelled *)
Record sky_descr := { k_value : option string; k_data : option sky_table }.
(** interp1d with another value outside the table (skyForegrounds.py:31-37, 43-49) *)
Definition interp_or (fill : R) (l : list (R * R)) (w : R) : R :=
  match locate w l with
  | None => fill
  | Some (p, None) => if Rltb (fst p) w then fill else snd p
  | Some (p, Some q) => (snd q - snd p) / (fst q - fst p) * (w - fst p) + snd p
  end.
Definition interp1d_or (fill : R) (x y wl : list R) : res (list R) :=
  match x with
  | [] => Err ValueError
  | _ => if Nat.eqb (length x) (length y)
         then Ok (map (interp_or fill (sort_src (combine x y))) wl)
         else Err ValueError
  end.
(** column.to(um): a column without unit counts as dimensionless *)
Definition to_um (c : column) : res (list R) :=
  match c_unit c with Some u => Ok (map (fun x => x * u) (c_values c)) | None => Err UnitConversionError end.
(** _get_radiance, skyForegrounds.py:28-55: the radiance is interpolated in the unit of the table and
    then multiplied by it (an array times None: TypeError) *)
Definition sky_filter (wl : list R) (d : sky_descr) : res foreground :=
  let* t := lookup (k_data d) in
  let* wcol := lookup (sget "Wavelength" t) in
  let* x := to_um wcol in
  let* rcol := lookup (sget "Radiance" t) in
  let* y := interp1d_or 0 x (c_values rcol) wl in
  let* y := match c_unit rcol with Some u => Ok (map (fun v => v * u) y) | None => Err TypeError end in
  let* tcol := lookup (sget "Transmission" t) in
  let* tr := interp1d_or 1 x (c_values tcol) wl in
  Ok {| f_light := {| s_wl := wl; s_data := y |}; f_transmission := Some tr |}.

(** EstimateForeground, foregroundHandler.py:93-126.  The new signal is a copy of the transmission
    (check_quantities, signal.py:111). *)
Definition entry (k : string) (f : foreground) (t : tgt) : option (sdict foreground) :=
  Some (sset k f (match g_foreground t with Some d => d | None => [] end)).
Definition estimate_foreground (n : nat) (a b : wavelength) (d : sky_descr) (t : tgt) : res tgt :=
  let* wl := working_grid n a b in
  let* name := lookup (k_value d) in
  let* f := sky_filter wl d in
  let* tr := lookup (f_transmission f) in
  let* sky := match g_sky t with
              | None => Ok {| s_wl := wl; s_data := tr |}
              | Some s => let* x := times (s_data s) tr in Ok {| s_wl := s_wl s; s_data := x |}
              end in
  Ok {| g_ra := g_ra t; g_dec := g_dec t; g_foreground := entry name f t; g_sky := Some sky |}.

(** ** ZodiacalFrg *)
(** the description: the inner dictionaries {"value": ...} are given by their value *)
Record zodi_descr := { z_map : option bool; z_map_file : option string; z_factor : option R }.
(** model, zodiacalForeground.py:67-77 *)
Definition zodi_model (wl : list R) (A : R) : sig :=
  {| s_wl := wl; s_data := map (fun w => A * (3.5 / 10 ^ 14 * planck w 5500 + 3.58 / 10 ^ 8 * planck w 270)) wl |}.
(** the file system as far as zodiacal maps matter: files, the directories holding a directory
    "data", the parent of a directory, the tables in hdf5 files *)
Record maps := {
  m_isfile : string -> bool; m_has_data : string -> bool; m_parent : string -> string;
  m_read : string -> res column_table }.
(** exorad_path and the directory of the module; "data/Zodi_map.hdf5" below *)
Definition package_dir : string := "exorad".
Definition module_dir : string := "exorad/models/foregrounds".
Definition map_in (dir : string) : string := (dir ++ "/data/Zodi_map.hdf5")%string.
(** zodiacalForeground.py:104-112; the test i > 10 (113) is never true *)
Fixpoint climb (m : maps) (i : nat) (dir : string) : string :=
  match i with
  | O => dir
  | S i => if m_has_data m dir then dir else climb m i (m_parent m dir)
  end.
Definition map_file (m : maps) (custom : option string) : string :=
  let f := match custom with Some s => if String.eqb s "" then map_in package_dir else s | None => map_in package_dir end in
  if m_isfile m f then f else map_in (climb m 10 module_dir).
(** a quantity minus a coordinate: of the bare numbers only 0 will do *)
Definition degrees (c : coordinate) : res R :=
  match c with Degrees x => Ok x | Number x => if Req_EM_T x 0 then Ok 0 else Err UnitConversionError end.
Fixpoint sq_distances (ra dec : R) (ras decs : list R) : list R :=
  match ras, decs with
  | a :: ras, b :: decs => ((a - ra) ^ 2 + (b - dec) ^ 2) :: sq_distances ra dec ras decs
  | _, _ => []
  end.
(** zodiacal_fit_direction, zodiacalForeground.py:79-132 *)
Definition fit_direction (m : maps) (ra dec : coordinate) (custom : option string) : res R :=
  let* t := m_read m (map_file m custom) in
  let* ras := col t "ra_icrs" in
  let* ra := degrees ra in
  let* decs := col t "dec_icrs" in
  let* dec := degrees dec in
  let* i := argmin (sq_distances ra dec ras decs) in
  let* cs := col t "zodi_coeff" in
  match nth_error cs i with Some c => Ok c | None => Err IndexError end.
(** _get_radiance, zodiacalForeground.py:38-65; after a failed fit the radiance of the recursive call
    is dropped and A is not assigned *)
Definition zodi_factor (m : maps) (d : zodi_descr) (coords : option (coordinate * coordinate)) : res R :=
  let from_factor := match z_factor d with Some v => Ok v | None => Ok 0 end in
  match z_map d, coords with
  | Some true, Some (ra, dec) =>
      match fit_direction m ra dec (z_map_file d) with
      | Err KeyError | Err OSError => Err UnboundLocalError
      | r => r
      end
  | _, _ => from_factor
  end.
(** EstimateZodi, foregroundHandler.py:36-66 *)
Definition estimate_zodi (m : maps) (n : nat) (a b : wavelength) (d : zodi_descr) (t : tgt) : res tgt :=
  let* wl := working_grid n a b in
  let* coords := match g_ra t with
                 | Some ra => match g_dec t with Some dec => Ok (Some (ra, dec)) | None => Err KeyError end
                 | None => Ok None
                 end in
  let* A := zodi_factor m d coords in
  Ok {| g_ra := g_ra t; g_dec := g_dec t;
        g_foreground := entry "zodi" {| f_light := zodi_model wl A; f_transmission := None |} t; g_sky := g_sky t |}.

(** ** EstimateForegrounds, foregroundHandler.py:153-187.  A description may be read as one of zodiacal
    light and as one of a sky filter: which one decides the key among many (the name in the payload),
    or the value of a single one. *)
Record any_descr := { as_sky : sky_descr; as_zodi : zodi_descr }.
Inductive foregrounds_descr := Many (l : sdict any_descr) | One (d : any_descr).
Definition estimate_one (m : maps) (n : nat) (a b : wavelength) (key : string) (d : any_descr) (t : tgt) : res tgt :=
  if String.eqb key "zodiacal" then estimate_zodi m n a b (as_zodi d) t
  else estimate_foreground n a b (as_sky d) t.
Fixpoint estimate_all (m : maps) (n : nat) (a b : wavelength) (l : sdict any_descr) (t : tgt) : res tgt :=
  match l with
  | [] => Ok t
  | (k, d) :: l => let* t := estimate_one m n a b k d t in estimate_all m n a b l t
  end.
Definition estimate_foregrounds (m : maps) (n : nat) (a b : wavelength) (f : foregrounds_descr) (t : tgt) : res tgt :=
  match f with
  | Many l => estimate_all m n a b l t
  | One d => let* v := lookup (k_value (as_sky d)) in estimate_one m n a b v d t
  end.
