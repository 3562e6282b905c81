(** Model of the building of channels: Instrument.build and build_optical_path
    (models/instruments/instrument.py:86-154), Photometer.builder (photometer.py:38-132),
    Spectrometer.builder (spectrometer.py:111-324), prepare (utils/diffuse_light_propagation.py:14-54),
    BuildInstrument and BuildChannels (tasks/instrumentHandler.py:58-72, 103-153).  Definitions only.
    Units: the band, pixels and focal ratios are in um and dimensionless; the range of the detector
    keeps its unit, since build_optical_path ignores it.  Detector keys other than those which are
    options here are assumed present.  What a failing build leaves behind is not modelled. *)
From Coq Require Import Reals.
From Verif Require Import Base PyStr XR M_Signal M_Optics M_Light M_Bins M_Psf M_Omega M_Star M_Source M_Table M_Observe.
From Verif Require M_Noise.
Open Scope list_scope.
Open Scope R_scope.

(** ** Descriptions *)
(** description["PSF"]: its value and its format *)
Record psf_descr := { f_file : string; f_format : option string }.
Record description := {
  d_name : option string;                   (* "value" *)
  d_class : option string;                  (* channelClass; a text *)
  d_min : R; d_max : R;                     (* wl_min, wl_max *)
  d_from : wavelength; d_to : wavelength;   (* detector wl_min, cut_off *)
  d_delta : R; d_qe : qe_description;       (* detector delta_pix, qe *)
  d_fx : option R; d_fy : option R;         (* Fnum_x, Fnum_y *)
  d_psf : option psf_descr; d_aperture : option aperture;
  d_solution : option solution; d_targetR : option target_r; d_wfe : option R; d_windows : window_keys;
  d_optics : option optics; d_detector : M_Noise.channel }.
(** payload["optics"] *)
Record optics_section := { o_elements : optics; o_force : option bool; o_area : R }.
(** payload["channel"]: an OrderedDict, or any other dictionary *)
Inductive channel_section := Ordered (l : list (string * description)) | Plain (d : description).
Record payload := { p_optics : option optics_section; p_custom : option M_Noise.custom; p_channel : option channel_section }.

(** ** What is outside: the point spread functions (modelled in M_Psf as far as they are arithmetic),
    photutils, and cubic interpolation; PassVal.working_R *)
Record outer := {
  u_pixel_based : string -> R -> res image;                                   (* pixel_based_psf, exolib.py:283-302 *)
  u_paos : string -> R -> R -> res (image * image);                           (* paosPSF, exolib.py:384-426 *)
  u_binned : option string -> R -> R -> R -> R -> res (image * image);        (* binnedPSF, exolib.py:204-271 *)
  u_encircled : image -> R -> R -> R -> nat -> R;                             (* encircled_energy, exolib.py:511-522 *)
  u_cubic : list R -> list R -> R -> res R;                                   (* interp1d(kind="cubic"), spectrometer.py:364-369 *)
  u_R : nat }.

(** Computations with loops that may not end: None *)
Definition andthen {A B} (r : option (res A)) (k : A -> option (res B)) : option (res B) :=
  match r with None => None | Some (Err e) => Some (Err e) | Some (Ok a) => k a end.

(** ** Point spread functions: photometer.py:47-77, spectrometer.py:197-219.  The kernel of a pixel
    based psf is the array [1.] (None). *)
Definition has_format (d : description) (f : string) : bool :=
  match d_psf d with Some p => match f_format p with Some g => String.eqb g f | None => false end | None => false end.
Definition psf_at (w : outer) (d : description) (wl : R) : res (image * option image) :=
  match d_psf d with
  | Some p =>
      if has_format d "pixel_based" then let* im := u_pixel_based w (f_file p) wl in Ok (im, None)
      else if has_format d "paos" then let* (im, k) := u_paos w (f_file p) wl (d_delta d) in Ok (im, Some k)
      else let* fx := lookup (d_fx d) in let* fy := lookup (d_fy d) in
           let* (im, k) := u_binned w (Some (f_file p)) fx fy wl (d_delta d) in Ok (im, Some k)
  | None => let* fx := lookup (d_fx d) in let* fy := lookup (d_fy d) in
            let* (im, k) := u_binned w None fx fy wl (d_delta d) in Ok (im, Some k)
  end.

(** ** What builder leaves in the table and in built_instr *)
Record parts := {
  q_bins : list bin; q_qe : sig; q_kind : kind; q_pixels : option (list R * list R);
  q_spatial : option (list R); q_size : list R; q_columns : table }.
(** the columns of _wavelength_table, photometer.py:29-35, spectrometer.py:98-107, then QE, then
    WindowSize; assigning a column that exists replaces it *)
Definition wavelength_columns (name : string) (bins : list bin) (t : table) : table :=
  sset "RightBinEdge" (map (fun b => num (right_edge b)) bins)
    (sset "LeftBinEdge" (map (fun b => num (left_edge b)) bins)
       (sset "Bandwidth" (map (fun b => num (width b)) bins)
          (sset "Wavelength" (map (fun b => num (centre b)) bins)
             (sset "chName" (map (fun _ => Txt name) bins) t)))).
Definition builder_columns (name : string) (bins : list bin) (qe : list (option R)) (size : list R) (t : table) : table :=
  sset "WindowSize" (map num size) (sset "QE" (map cell_of qe) (wavelength_columns name bins t)).
(** _get_qe with the detector's range in um, instrument.py:306-318; a bare number has no .to *)
Definition in_microns (w : wavelength) : res R :=
  match in_um w with Some _ => Ok (um_of w) | None => Err AttributeError end.
Definition qe_of (w : outer) (name : string) (d : description) (bins : list bin) : res (list (option R) * sig) :=
  match d_qe d with
  | QeFile _ => get_qe name (d_qe d) 0 0 (u_R w) bins
  | QeValue _ => let* a := in_microns (d_from d) in let* b := in_microns (d_to d) in get_qe name (d_qe d) a b (u_R w) bins
  end.

(** Photometer._windows_size, photometer.py:90-132; [wl] the centre of the band *)
Definition window_of (w : outer) (fuel : nat) (d : description) (prf : image) (wl : R) : option (res R) :=
  match d_aperture d with
  | None => Some (Err KeyError)
  | Some a =>
      let pixel_based := has_format d "pixel_based" in
      match (if pixel_based then Ok (1, 1, 1)
             else match a_radius a, a_ene a with
                  | None, None => Ok (1, 1, 1)
                  | _, _ => let* fx := lookup (d_fx d) in let* fy := lookup (d_fy d) in Ok (fx, fy, wl)
                  end) with
      | Err e => Some (Err e)
      | Ok (fx, fy, x) =>
          match (match a_radius a, a_ene a with
                 | None, Some e => find_aperture_radius (u_encircled w prf fx fy x) e fuel
                 | _, _ => Some (Ok 0)
                 end) with
          | None => None
          | Some found => Some (photometer_window (Some a) pixel_based (fun _ => found) fx fy x (d_delta d))
          end
      end
  end.
(** Photometer.builder, photometer.py:38-88, on a table [t] *)
Definition photometer_builder (w : outer) (fuel : nat) (name : string) (d : description) (t : table) : option (res parts) :=
  let bins := photometer_table (d_min d) (d_max d) in
  let wl := 0.5 * (d_min d + d_max d) in
  andthen (Some (qe_of w name d bins)) (fun qe : list (option R) * sig =>
  andthen (Some (psf_at w d wl)) (fun psf : image * option image =>
  andthen (window_of w fuel d (fst psf) wl) (fun size : R =>
  Some (Ok {| q_bins := bins; q_qe := snd qe; q_kind := Phot (d_aperture d) (concat (fst psf)); q_pixels := None;
              q_spatial := None; q_size := [size]; q_columns := builder_columns name bins (fst qe) [size] t |})))).

(** Spectrometer.builder, spectrometer.py:111-324, on a table [t].  A wavelength solution of fewer
    than two points is refused here (OtherError); np.arange refuses a pixel of size 0. *)
Definition gain_table (w : outer) (d : description) (pix_wl : list R) : res (list R * list R) :=
  let* wls := gain_wavelengths pix_wl in
  let* g := mapM (fun wl => let* psf := psf_at w d wl in prf_gain (fst psf) (snd psf) (d_wfe d) wl) wls in
  Ok (wls, g).
Definition spectrometer_builder (w : outer) (fuel : nat) (name : string) (d : description) (t : table) : option (res parts) :=
  match d_solution d with
  | None => Some (Err KeyError)
  | Some s =>
      if negb (Nat.eqb (length (sol_wl s)) (length (sol_x s))) then Some (Err ValueError)
      else if Nat.ltb (length (sol_wl s)) 2 then Some (Err OtherError)
      else if Req_EM_T (d_delta d) 0 then Some (Err ZeroDivisionError)
      else
        let px := pixels s (d_min d) (d_max d) (d_delta d) in
        let pix_wl := pixel_wl s px in
        let pix_width := pixel_width s (d_delta d) px in
        andthen (spectrometer_table (d_targetR d) (d_min d) (d_max d) pix_wl pix_width fuel) (fun eb : list R * list bin =>
        andthen (Some (qe_of w name d (snd eb))) (fun qe : list (option R) * sig =>
        andthen (Some (gain_table w d pix_wl)) (fun g : list R * list R =>
        andthen (Some (lookup (d_fy d))) (fun fy : R =>
        andthen (Some (spectrometer_windows (d_windows d) (x_of s) fy (d_delta d) (fst eb) (snd eb))) (fun size : list R =>
        Some (Ok {| q_bins := snd eb; q_qe := snd qe; q_kind := Spec pix_wl pix_width (u_cubic w (fst g) (snd g));
                    q_pixels := Some (pix_wl, pix_width); q_spatial := Some (spatial_widths (d_windows d) fy (d_delta d) (snd eb));
                    q_size := size; q_columns := builder_columns name (snd eb) (fst qe) size t |}))))))
  end.

(** ** build_optical_path, instrument.py:101-154 *)
(** The grid: the numbers of the detector's range, whatever their unit, taken as um, 108-119.  For a
    grid of one point, OpticalPath looks for the payload's own detector (opticalPath.py:187-190). *)
Definition optical_grid (w : outer) (d : description) : res (list R) :=
  match in_um (d_from d), in_um (d_to d) with
  | Some _, Some _ => if Nat.eqb (u_R w) 1 then Err KeyError else Ok (logspace (value (d_from d)) (value (d_to d)) (u_R w))
  | _, _ => Err AttributeError
  end.
(** OpticalPath(...) for the payload and for the channel, 121-128 *)
Definition optical_path (wl : list R) (p : payload) (d : description) : res elements :=
  let* o := lookup (p_optics p) in
  let* common := prepare_elements (o_elements o) wl in
  let* co := lookup (d_optics d) in
  let* own := prepare_elements co wl in
  Ok (prepend common own).
(** hstack of two tables: astropy renames the columns found in both, to ..._1 and ..._2 *)
Definition renamed (suffix : string) (other : table) (t : table) : table :=
  map (fun c => (if smem (fst c) other then (fst c ++ suffix)%string else fst c, snd c)) t.
Definition hstack (a b : table) : table := renamed "_1" b a ++ renamed "_2" a b.
Definition build_optical_path (w : outer) (p : payload) (d : description) (q : parts) : res chan :=
  let* wl := optical_grid w d in
  let* els := optical_path wl p d in
  let* total := col (transmission_table wl els) "total" in
  let force := match p_optics p with Some o => o_force o | None => None end in
  let area := match p_optics p with Some o => o_area o | None => 0 end in
  let* (tr_column, tr) := get_transmission_column (q_bins q) force (d_min d) (d_max d) {| s_wl := wl; s_data := total |} in
  let* (rads, slit) := chain planck wl els in
  let* fx := lookup (d_fx d) in
  let light := {| b_slit := slit; b_pix_wl := option_map fst (q_pixels q); b_pix_width := option_map snd (q_pixels q);
                  b_spatial := q_spatial q; b_size := q_size q; b_qe := q_qe q; b_tr := tr; b_delta := d_delta d;
                  b_omega := omega_pix fx (d_fy d) |} in
  let* em := compute_signal light (map (fun b => (left_edge b, right_edge b)) (q_bins q)) wl rads in
  let t := hstack (sset "TR" (map cell_of tr_column) (q_columns q))
                  [("instrument_signal"%string, map num (total_signal em)); ("instrument_MaxSignal_inPixel"%string, map num (total_max em))] in
  Ok {| h_star := {| c_bins := q_bins q; c_force := force; c_min := d_min d; c_max := d_max d; c_qe := q_qe q; c_tr := tr; c_area := area; c_sky := None |};
        h_kind := q_kind q; h_light := light; h_noise := d_detector d; h_common := p_custom p; h_table := {| cols := t; meta := [] |} |}.

(** ** Instrument.build, instrument.py:86-99, of an instrument with the table [t], loaded from a file
    or not *)
Inductive instrument_class := Photometer | Spectrometer.
Definition build (w : outer) (fuel : nat) (loaded : bool) (k : instrument_class) (name : string) (d : description) (p : payload) (t : table) : option (res chan) :=
  if loaded then Some (Err ValueError)
  else andthen (match k with Photometer => photometer_builder w fuel name d t | Spectrometer => spectrometer_builder w fuel name d t end)
               (fun q => Some (build_optical_path w p d q)).
(** BuildInstrument, instrumentHandler.py:10, 58-72 *)
Definition class_named (s : string) : option instrument_class :=
  if String.eqb s "photometer" then Some Photometer else if String.eqb s "spectrometer" then Some Spectrometer else None.
Definition build_instrument (w : outer) (fuel : nat) (type name : string) (d : description) (p : payload) : option (res chan) :=
  match class_named type with
  | None => Some (Err ValueError)
  | Some k => build w fuel false k name d p []
  end.
(** BuildChannels, instrumentHandler.py:103-153 (writing to a file is in M_Pipeline) *)
Definition build_one (w : outer) (fuel : nat) (p : payload) (name : string) (d : description) : option (res chan) :=
  match d_class d with
  | None => Some (Err KeyError)
  | Some c => build_instrument w fuel (py_lower c) name d p
  end.
Fixpoint build_all (w : outer) (fuel : nat) (p : payload) (l : list (string * description)) : option (res (list (string * chan))) :=
  match l with
  | [] => Some (Ok [])
  | (name, d) :: l => andthen (build_one w fuel p name d) (fun c =>
                      andthen (build_all w fuel p l) (fun cs => Some (Ok ((name, c) :: cs))))
  end.
Definition build_channels (w : outer) (fuel : nat) (p : payload) : option (res (list (string * chan))) :=
  match p_channel p with
  | None => Some (Err KeyError)
  | Some (Ordered l) => build_all w fuel p l
  | Some (Plain d) => match d_class d, d_name d with
                      | Some c, Some name => andthen (build_instrument w fuel (py_lower c) name d p) (fun c => Some (Ok [(name, c)]))
                      | _, _ => Some (Err KeyError)
                      end
  end.
