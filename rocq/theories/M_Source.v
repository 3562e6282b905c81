(** Model of the stellar source: utils/exolib.py: planck (167-190), models/source.py (17-269),
    models/target.py: calc_logg and update_target (26-42), tasks/loadSource.py: LoadSource (48-205).
    Definitions only.  Lengths of the star are in m, masses in kg, temperatures in K, wavelengths in
    um, fluxes in W/m^2/um; arithmetic is exact. *)
From Verif Require Import Base PyStr XR M_Signal M_Optics M_Light M_Bins M_Psf.
From Coq Require Import Qreals.
Open Scope list_scope.
Open Scope R_scope.

(** ** planck, exolib.py:167-190.  The overflow of exp at short wavelengths (which gives 0) is not
    modelled, nor T = 0. *)
Definition planck (wl T : R) : R := 119104276.8 / wl ^ 5 / (exp (14387.7516 / (wl * T)) - 1).

(** What Star and CustomSed hold: models/source.py:88-90, 267-269.  The luminosity is in solar ones
    (astropy: 3.828e26 W). *)
Record star := { st_sed : sig; st_luminosity : R; st_model : string }.
Definition solar_luminosity : R := 3828 * 10 ^ 23.

(** ** A black body: __init__ 62-72 and __get_star_spectrum 238-247; [lo], [hi] in um *)
Definition planck_star (lo hi D T r : R) : star :=
  let wl := linspace lo hi 10000 in
  let omega := PI * (r / D) ^ 2 in
  let sed := map (fun w => omega * planck w T) wl in
  {| st_sed := {| s_wl := wl; s_data := sed |};
     st_luminosity := 4 * PI * D ^ 2 * trapz wl sed / solar_luminosity;
     st_model := "Planck" |}.

(** ** Stellar models *)
(** name.split("-")[i] *)
Definition part (i : nat) (name : string) : res string :=
  match nth_error (py_split "-" name) i with Some s => Ok s | None => Err IndexError end.
Definition drop3 (s : string) : string := str_of (skipn 3 (str_chars s)).
Definition take3 (s : string) : string := str_of (firstn 3 (str_chars s)).
(** float(s); names holding an infinity or NaN are not modelled and refused here *)
Definition number_in (s : string) : res R :=
  match py_float s with Some (FQ q) => Ok (Q2R q) | _ => Err ValueError end.
(** source.py:116-124 *)
Definition temperature_in (name : string) : res R := let* s := part 0 name in number_in (drop3 s).
Definition gravity_in (name : string) : res R := let* s := part 1 name in number_in s.
Definition metallicity_in (name : string) : res R := let* s := part 2 name in number_in (take3 s).
(** np.argmin: the first of the smallest *)
Fixpoint argmin_from (best : nat) (d : R) (i : nat) (l : list R) : nat :=
  match l with
  | [] => best
  | x :: l => if Rltb x d then argmin_from i x (S i) l else argmin_from best d (S i) l
  end.
Definition argmin (l : list R) : res nat := match l with [] => Err ValueError | x :: l => Ok (argmin_from 0 x 1 l) end.
Fixpoint distances (t g z : R) (Ts Gs Zs : list R) : list R :=
  match Ts, Gs, Zs with
  | a :: Ts, b :: Gs, c :: Zs => (Rabs (a - t) + Rabs (b - g) + Rabs (c - z)) :: distances t g z Ts Gs Zs
  | _, _, _ => []
  end.
(** __get_phonix_model_filename, source.py:110-143; [names]: the names of the files found by glob, in
    its order; OSError when there are none (92-108) *)
Definition choose_model (names : list string) (T logg z : R) : res string :=
  match names with
  | [] => Err OSError
  | _ =>
      let* Ts := mapM temperature_in names in
      let* Gs := mapM gravity_in names in
      let* Zs := mapM metallicity_in names in
      let t := IZR (rint (T / 100)) in
      match Ts with
      | [] => Err ValueError
      | a :: l =>
          if Rltb t (rmin a l) || Rltb (rmax a l) t then Err ValueError
          else let* i := argmin (distances t logg z Ts Gs Zs) in
               match nth_error names i with Some n => Ok n | None => Err IndexError end
      end
  end.
(** "remove duplicates", source.py:216-219: the samples followed by one at another wavelength *)
Fixpoint followed (l : list (R * R)) : list (R * R) :=
  match l with
  | p :: ((q :: _) as l') => if Req_EM_T (fst q - fst p) 0 then followed l' else p :: followed l'
  | _ => []
  end.
(** source.py:220-236 and CustomSed, 250-269: a table of surface fluxes *)
Definition tabulated (l : list (R * R)) (D r : R) (model : string) : star :=
  let wl := map fst l in
  let flux := map snd l in
  {| st_sed := {| s_wl := wl; s_data := scaled ((r / D) ^ 2) flux |};
     st_luminosity := 4 * PI * r ^ 2 * trapz wl flux / solar_luminosity;
     st_model := model |}.

(** ** The world outside: directories, files (as tables in um and W/m^2/um, whatever the units they
    are written in) and the environment variable PHOENIX_PATH *)
Record world := {
  w_exists : string -> bool;                          (* os.path.exists *)
  w_models : string -> list string;                   (* glob of *.BT-Settl.spec.fits.gz *)
  w_spectrum : string -> string -> res (list (R * R)); (* fits file of a directory *)
  w_table : string -> res (list (R * R));             (* ecsv file *)
  w_phoenix : option string }.
(** __init__ with use_planck_spectrum=False and no file name (74-89), and __read_phenix_spectrum
    (145-236).  A name found by the glob always has "spec.fits.gz" in it. *)
Definition phoenix_star (w : world) (dir : string) (D T logg r : R) : res star :=
  let* n := choose_model (w_models w dir) T logg 0 in
  if contains "spec.fits.gz" (dir ++ "/" ++ n) then
    let* l := w_spectrum w dir n in Ok (tabulated (followed l) D r n)
  else Err OSError.
Definition custom_star (w : world) (file : string) (D r : R) : res star :=
  let* l := w_table w file in Ok (tabulated l D r "Custom").

(** ** LoadSource *)
(** log10(G M / R^2) with G in SI and the result in cm/s^2: target.py:26-32 *)
Definition calc_logg (M r : R) : R := ln (6.6743 / 10 ^ 11 * M / r ^ 2 * 100) / ln 10.
(** a wavelength given by the user: a bare number, or a quantity with the size of its unit in um *)
Record wavelength := { value : R; in_um : option R }.
Definition um_of (w : wavelength) : R := value w * match in_um w with Some s => s | None => 1 end.
(** loadSource.py:57-63.  Comparing a quantity with a bare number fails (astropy makes an exception
    for 0, inf and nan). *)
Definition wl_range (a b : wavelength) : res (wavelength * wavelength) :=
  match in_um a, in_um b with
  | Some _, None | None, Some _ => Err UnitConversionError
  | _, _ => let (a, b) := if Rltb (um_of b) (um_of a) then (b, a) else (a, b) in
            match in_um a with
            | None => Ok ({| value := value a; in_um := Some 1 |}, {| value := value b; in_um := Some 1 |})
            | Some _ => Ok (a, b)
            end
  end.
(** the description of the source: loadSource.py:50-55; the inner dictionaries {"value": ...} are
    given by their value *)
Record description := { d_value : option string; d_custom : option string; d_models : option string }.
Inductive source_arg := SourceName (s : string) | SourceDict (d : description).
Definition description_of (s : source_arg) : description :=
  match s with SourceName v => {| d_value := Some v; d_custom := None; d_models := None |} | SourceDict d => d end.
(** the star of a target: quantities, None for what has no value or is missing *)
Record stellar := { t_D : option R; t_Teff : option R; t_M : option R; t_R : option R }.
Definition given (o : option R) : res R := match o with Some x => Ok x | None => Err AttributeError end.
Definition or_planck (r : res star) (p : star) : res star :=
  match r with Err ValueError => Ok p | r => r end.
(** loadSource.py:74-176 *)
Definition make_star (w : world) (t : stellar) (d : description) (lo hi : R) : res star :=
  let* name := lookup (d_value d) in
  if String.eqb (py_lower name) "custom" then
    let* D := given (t_D t) in
    let* r := given (t_R t) in
    let* file := lookup (d_custom d) in
    custom_star w file D r
  else
    let* D := given (t_D t) in
    let* T := given (t_Teff t) in
    let* M := given (t_M t) in
    let* r := given (t_R t) in
    let planck := planck_star lo hi D T r in
    if String.eqb (py_lower name) "planck" then Ok planck
    else if String.eqb (py_lower name) "phoenix" then
      let* dir := match d_models d with
                  | Some p => Ok p
                  | None => match w_phoenix w with Some p => Ok p | None => Err OSError end
                  end in
      if negb (w_exists w dir) then Err OSError
      else or_planck (phoenix_star w dir D T (calc_logg M r) r) planck
    else Ok planck.
(** execute, loadSource.py:48-186; [n] is PassVal.working_R.  The grid is made of the bare values in
    the unit of the upper end (65-72), and rebinning fails unless this is um. *)
Definition load_source (w : world) (n : nat) (a b : wavelength) (t : stellar) (s : source_arg) : res star :=
  let* (lo, hi) := wl_range a b in
  let* st := make_star w t (description_of s) (um_of lo) (um_of hi) in
  let grid := logspace (value lo) (value hi) n in
  if Req_EM_T (um_of {| value := 1; in_um := in_um hi |}) 1 then
    let* sed := resample grid (st_sed st) in
    Ok {| st_sed := sed; st_luminosity := st_luminosity st; st_model := st_model st |}
  else Err ValueError.

(** update_target (target.py:34-42) and _add_star_metadata (loadSource.py:188-205): the three results
    in target.star, and the header of the target's table, if it has one; [name] and [magk]: the
    attributes of target.star.  The other entries are copies of its attributes. *)
Inductive meta := MText (s : string) | MNumber (x : R) | MNone.
Definition number_or_none (o : option R) : meta := match o with Some x => MNumber x | None => MNone end.
Definition add_star_metadata (name : option string) (magk : option R) (t : stellar) (st : star) (header : sdict meta) : res (sdict meta) :=
  match name with
  | None => Err AttributeError
  | Some n =>
      let m := [("starName"%string, MText n); ("starM"%string, number_or_none (t_M t)); ("starTeff"%string, number_or_none (t_Teff t));
                ("starR"%string, number_or_none (t_R t)); ("starDistance"%string, number_or_none (t_D t));
                ("starL"%string, MNumber (st_luminosity st)); ("starModel"%string, MText (st_model st))]
               ++ match magk with Some x => [("starMagK"%string, MNumber x)] | None => [] end in
      Ok (dupdate String.eqb header m)
  end.
