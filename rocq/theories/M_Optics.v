(** Model of exorad/models/optics/opticalElement.py and opticalPath.py (elements, transmission
    table, emission chain), and exorad/models/utils.py.  Definitions only. *)
From Verif Require Import Base XR M_Signal.
Open Scope list_scope.
Open Scope R_scope.

(** ** Descriptions of elements *)
(** A value in a description: a number (quantities are already in the unit the code converts
    them to: um, K, sr), a text, or a table of columns of numbers. *)
Definition column_table := sdict (list R).
Inductive field := Num (x : R) | Txt (s : string) | Tab (t : column_table).
Definition descr := sdict field.
(** d[key]["value"], where a number is needed; a text times an array is a TypeError *)
Definition number (d : descr) (key : string) : res R :=
  match sget key d with Some (Num x) => Ok x | Some _ => Err TypeError | None => Err KeyError end.
(** d[key]["value"], where a text is expected *)
Definition text (d : descr) (key : string) : res string :=
  match sget key d with Some (Txt s) => Ok s | Some _ => Err TypeError | None => Err KeyError end.
Definition given (d : descr) (key : string) : bool := smem key d.
(** d["data"] *)
Definition table_of (d : descr) : res column_table :=
  match sget "data" d with Some (Tab t) => Ok t | Some _ => Err TypeError | None => Err KeyError end.
Definition col (t : column_table) (name : string) : res (list R) :=
  match sget name t with Some l => Ok l | None => Err KeyError end.

(** get_wl_col_name, models/utils.py:1-11.  wl_key is a loop variable: when the description
    names the column it is never assigned.  A table without either column gives None, which
    no table accepts as a name (ValueError); wl_key itself is then "wavelength". *)
Definition get_wl_col_name (t : column_table) (d : descr) : res string :=
  if given d "wl_col_name" then Err UnboundLocalError
  else if smem "wavelength" t then Ok "wavelength"
       else if smem "Wavelength" t then Ok "Wavelength" else Err ValueError.

(** interp1d(x, y, assume_sorted=False, fill_value=0, bounds_error=False)(wl); columns of a
    table have the same length.  The unit of the wavelength column is ignored by interp1d. *)
Definition interp1d (x y : list R) (wl : list R) : res (list R) :=
  match x with
  | [] => Err ValueError
  | _ => if Nat.eqb (length x) (length y)
         then Ok (map (interp (sort_src (combine x y))) wl)
         else Err ValueError
  end.
Definition ones (wl : list R) (v : R) : list R := map (fun _ => 1 * v) wl.
(** zero where [p] *)
Definition zero_where (p : R -> bool) (wl tr : list R) : list R :=
  map (fun q => if p (fst q) then 0 else snd q) (combine wl tr).

(** _get_transmission, opticalElement.py:140-228 *)
Definition get_transmission (d : descr) (wl : list R) : res (list R) :=
  if given d "data" then
    let* t := table_of d in
    let* colname := if given d "use" then text d "use"
                    else if smem "Transmission" t then Ok "Transmission"%string
                    else if smem "Reflectivity" t then Ok "Reflectivity"%string
                    else Err KeyError in
    let* wlname := get_wl_col_name t d in
    let* x := col t wlname in
    let* y := col t colname in
    interp1d x y wl
  else if given d "transmission" && given d "reflectivity" then
    if given d "use" then
      let* key := text d "use" in
      let* v := number d key in
      Ok (ones wl v)
    else Err KeyError
  else if given d "transmission" || given d "reflectivity" then
    let* v := if given d "transmission" then number d "transmission" else number d "reflectivity" in
    let tr := ones wl v in
    let* tr := if given d "wl_min" then let* m := number d "wl_min" in Ok (zero_where (fun w => Rltb w m) wl tr) else Ok tr in
    if given d "wl_max" then let* m := number d "wl_max" in Ok (zero_where (fun w => Rltb m w) wl tr) else Ok tr
  else Ok (ones wl 1).

(** _get_emissivity, opticalElement.py:230-289 *)
Definition get_emissivity (d : descr) (type : string) (wl : list R) : res (list R) :=
  if given d "data" then
    let* t := table_of d in
    let* wlname := get_wl_col_name t d in
    let* name := if smem "Emissivity" t then Ok "Emissivity"%string
                 else if smem "emissivity" t then Ok "emissivity"%string else Err KeyError in
    let* x := col t wlname in
    let* y := col t name in
    interp1d x y wl
  else if given d "emissivity" then let* v := number d "emissivity" in Ok (ones wl v)
  else if String.eqb type "detector box" then Ok (ones wl 1)
  else Ok (ones wl 0).

Definition optional (d : descr) (key : string) : res (option R) :=
  if given d key then let* v := number d key in Ok (Some v) else Ok None.
(** _get_position, opticalElement.py:105-119 *)
Inductive position := Detector | OpticsBox | Path.
Definition get_position (type : string) : position :=
  if String.eqb type "detector box" then Detector
  else if String.eqb type "optics box" then OpticsBox else Path.

(** class OpticalElement, opticalElement.py:62-83 *)
Record element := {
  e_name : string; e_descr : descr; e_type : string; e_tr : list R; e_em : list R;
  e_temp : option R; e_pos : position; e_angle : option R }.
Definition build_element (d : descr) (wl : list R) : res element :=
  let* name := text d "value" in
  let* type := text d "type" in
  let* tr := get_transmission d wl in
  let* em := get_emissivity d type wl in
  let* temp := optional d "temperature" in
  let* angle := optional d "solid_angle" in
  Ok {| e_name := name; e_descr := d; e_type := type; e_tr := tr; e_em := em; e_temp := temp; e_pos := get_position type; e_angle := angle |}.

(** ** The path *)
Definition elements := sdict element.
(** the opticalElement entry of the optics section: none, one, or several (an OrderedDict) *)
Inductive optics := NoElement | One (d : descr) | Several (ds : sdict descr).
Definition default_element : descr := [("value"%string, Txt "noElement"); ("type"%string, Txt "surface")].
(** _prepare_elements, opticalPath.py:219-241 *)
Fixpoint build_elements (ds : sdict descr) (wl : list R) (out : elements) : res elements :=
  match ds with
  | [] => Ok out
  | (k, d) :: ds' => let* e := build_element d wl in build_elements ds' wl (sset k e out)
  end.
Definition prepare_elements (o : optics) (wl : list R) : res elements :=
  match o with
  | NoElement => let* e := build_element default_element wl in Ok [("noElement"%string, e)]
  | One d => let* e := build_element d wl in let* v := text d "value" in Ok [(v, e)]
  | Several ds => build_elements ds wl []
  end.
(** prepend_optical_elements, opticalPath.py:205-217, as called by build_optical_path,
    instrument.py:118-126: [common] is the payload's path *)
Definition prepend (common channel : elements) : elements := dof_list String.eqb (common ++ channel).

Definition mul (a b : list R) : list R := map (fun p => fst p * snd p) (combine a b).
(** build_transmission_table, opticalPath.py:148-168.  A table is a list of columns, assigning an
    existing column replaces it. *)
Fixpoint transmission_columns (els : elements) (t : column_table) (total : list R) : column_table * list R :=
  match els with
  | [] => (t, total)
  | (k, e) :: els' => transmission_columns els' (sset k (e_tr e) t) (mul total (e_tr e))
  end.
Definition transmission_table (wl : list R) (els : elements) : column_table :=
  let (t, total) := transmission_columns els [("Wavelength"%string, wl)] (ones wl 1) in
  sset "total" total t.

(** ** Emission, opticalPath.py:20-70 and 243-281 *)
Section Emission.
  (** the black body spectral radiance, a function of wavelength and temperature (exolib.planck) *)
  Variable planck : R -> R -> R.
  Record radiance := { r_data : list R; r_pos : position; r_slit : bool }.
  (** surface_radiance, opticalPath.py:20-53 *)
  Definition surface_radiance (wl : list R) (temp : R) (em : list R) : list R :=
    mul em (map (fun w => planck w temp) wl).
  (** the inner loop over the elements that follow, opticalPath.py:268-274 *)
  Fixpoint pass_through (rest : list element) (rad : radiance) (slit : option R) : res (radiance * option R) :=
    match rest with
    | [] => Ok (rad, slit)
    | e :: rest' =>
        let data := mul (r_data rad) (e_tr e) in
        if String.eqb (e_type e) "slit"
        then let* w := number (e_descr e) "width" in
             pass_through rest' {| r_data := data; r_pos := r_pos rad; r_slit := true |} (Some w)
        else pass_through rest' {| r_data := data; r_pos := r_pos rad; r_slit := r_slit rad |} slit
    end.
  (** chain: radiances by element name, and the slit width *)
  Fixpoint chain_from (wl : list R) (els : list element) (out : sdict radiance) (slit : option R) : res (sdict radiance * option R) :=
    match els with
    | [] => Ok (out, slit)
    | e :: rest =>
        match e_temp e with
        | None => chain_from wl rest out slit
        | Some temp =>
            let* (rad, slit') := pass_through rest {| r_data := surface_radiance wl temp (e_em e); r_pos := e_pos e; r_slit := false |} slit in
            chain_from wl rest (sset (e_name e) rad out) slit'
        end
    end.
  Definition chain (wl : list R) (els : elements) : res (sdict radiance * option R) := chain_from wl (map snd els) [] None.
End Emission.
