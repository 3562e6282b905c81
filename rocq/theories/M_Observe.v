(** Model of ObserveTarget (tasks/targetHandler.py:188-264) and of the tasks it is made of as far as
    they are not modelled elsewhere: PrepareTarget (targetHandler.py:67-97), PropagateForegroundLight
    and PropagateTargetLight (tasks/propagateLight.py:5-86).  Definitions only.
    Channels are shared objects: what is done to their tables stays, also when the observation fails.
    What a failing observation leaves behind in the target is not modelled. *)
From Verif Require Import Base XR M_Signal M_Optics M_Light M_Bins M_Star M_Source M_Foreground M_Table.
From Verif Require M_Noise.
Open Scope list_scope.

(** A built channel.  Its bins, efficiencies and band are in [h_star], what diffuse light needs in
    [h_light], the detector in [h_noise]; [h_common]: customNoise of the payload's common section.
    The bins are also columns of [h_table], and c_sky of [h_star] is not used: the column "sky TR" is
    in [h_table]. *)
Inductive kind := Phot (a : option aperture) (prf : list R) | Spec (pix_wl pix_width : list R) (gain : R -> res R).
Record chan := {
  h_star : M_Star.channel; h_kind : kind; h_light : built;
  h_noise : M_Noise.channel; h_common : option M_Noise.custom; h_table : mtable }.
Definition with_table (c : chan) (t : mtable) : chan :=
  {| h_star := h_star c; h_kind := h_kind c; h_light := h_light c; h_noise := h_noise c; h_common := h_common c; h_table := t |}.
Notation channels := (list (string * chan)).
Definition edges (c : chan) : binlist := map (fun b => (left_edge b, right_edge b)) (c_bins (h_star c)).

(** A target: what LoadSource reads, what EstimateForegrounds reads and writes, the results *)
Record target := {
  x_name : string; x_stellar : stellar; x_star_name : option string; x_magk : option R;
  x_sky : tgt; x_table : option mtable; x_source : option star;
  x_header : option (sdict M_Source.meta) }.
(** What is given by the run: the world outside, PassVal.working_R, the version, the range of
    wavelengths, and payload["common"] *)
Record setting := {
  y_world : world; y_maps : maps; y_R : nat; y_version : string; y_min : wavelength; y_max : wavelength;
  y_foreground : option foregrounds_descr; y_source : option source_arg }.

Definition num (x : R) : cell := Num (Fin x).
Definition cell_of (x : option R) : cell := match x with Some x => num x | None => Num NaN end.
(** cells of a table read as numbers; a masked cell is read as NaN *)
Definition read_cell (c : cell) : option R := match c with Num (Fin x) => Some x | _ => None end.

(** ** PrepareTarget, targetHandler.py:81-97, with MergeChannelsOutput (instrumentHandler.py:307-316).
    Stacking fills missing columns in the channels' own tables; a failure half way leaves them as they
    are here.  For a single channel the table of the target is the table of the channel. *)
Definition put_tables (chs : channels) (ts : list mtable) : channels :=
  map (fun p => (fst (fst p), with_table (snd (fst p)) (snd p))) (combine chs ts).
Definition alone (chs : channels) : bool := Nat.eqb (length chs) 1.
Definition header (s : setting) (x : target) : list (string * string) :=
  [("name"%string, x_name x); ("ExoRad version"%string, y_version s)].
Definition prepare_target (s : setting) (chs : channels) (x : target) : channels * res mtable :=
  match merge_channels (map (fun c => (fst c, cols (h_table (snd c)))) chs) with
  | Err e => (chs, Err e)
  | Ok (_, None) => (chs, Err AttributeError)               (* False.meta *)
  | Ok (ts, Some t) =>
      let m := fold_left (fun m c => dupdate String.eqb m (meta (h_table (snd c)))) chs [] in
      let t := {| cols := t; meta := dupdate String.eqb m (header s x) |} in
      let metas := map (fun c => meta (h_table (snd c))) chs in
      let ts := map (fun p => {| cols := fst p; meta := snd p |}) (combine ts metas) in
      (put_tables chs (if alone chs then [t] else ts), Ok t)
  end.

(** ** PropagateForegroundLight, propagateLight.py:72-86.  UpdateTargetTable removes repeated columns
    from the old table of the target: for a single channel this is the table of the channel. *)
Definition foreground_table (o : sdict (list R)) : table := map (fun p => (fst p, map num (snd p))) o.
Definition foreground_of (fs : option (sdict foreground)) (c : chan) : res table :=
  let* o := propagate_diffuse_foreground (h_light c) (edges c) fs in Ok (foreground_table o).
Definition propagate_foreground_light (chs : channels) (fs : option (sdict foreground)) (t : mtable) : channels * res mtable :=
  match mapM (fun c => foreground_of fs (snd c)) chs with
  | Err e => (chs, Err e)
  | Ok tabs =>
      match vstack_tables tabs with
      | Err e => (chs, Err e)
      | Ok (_, None) => (chs, Err AttributeError)           (* False.keys() *)
      | Ok (_, Some new) =>
          let (old, t) := update_table t {| cols := new; meta := [] |} in
          (if alone chs then put_tables chs [old] else chs, Ok t)
      end
  end.

(** ** PropagateTargetLight, propagateLight.py:29-43 *)
(** channel.propagate_target: its table, photometer.py:134-208, spectrometer.py:336-422 *)
Definition propagate_star (c : chan) (sky_column : option (list (option R))) (sed : sig) (sky : option sig) : res (star_table * option (list (option R))) :=
  let ch := with_sky (h_star c) sky_column in
  match h_kind c with
  | Phot a prf => propagate_photometer ch a prf sed sky
  | Spec wl width gain => propagate_spectrometer ch wl width gain sed sky
  end.
Definition star_columns (o : star_table) : table :=
  (match o_sky o with Some t => [("foreground_transmission"%string, map cell_of t)] | None => [] end)
  ++ [("starFlux"%string, map num (o_flux o)); ("starSignal"%string, map num (o_signal o));
      ("star_signal_inAperture"%string, map num (o_aperture o)); ("star_MaxSignal_inPixel"%string, map num (o_max o))].
Definition sky_column_of (c : chan) : option (list (option R)) := option_map (map read_cell) (sget "sky TR" (cols (h_table c))).
(** self.table["sky TR"] = ..., instrument.py:362-366: the column is there afterwards also when the
    propagation fails later on *)
Definition new_sky_column (c : chan) (wl : list R) (sky : option sig) : option (list (option R)) :=
  match sky, resample wl (c_qe (h_star c)), resample wl (c_tr (h_star c)) with
  | Some s, Ok _, Ok _ =>
      match get_transmission_column (c_bins (h_star c)) (c_force (h_star c)) (c_min (h_star c)) (c_max (h_star c)) s with
      | Ok (t, _) => Some t
      | Err _ => None
      end
  | _, _, _ => None
  end.
Definition set_sky (c : chan) (wl : list R) (sky : option sig) : chan :=
  match new_sky_column c wl sky with
  | Some t => with_table c {| cols := sset "sky TR" (map cell_of t) (cols (h_table c)); meta := meta (h_table c) |}
  | None => c
  end.
Fixpoint propagate_stars (chs : channels) (sed : sig) (sky : option sig) : channels * res (list table) :=
  match chs with
  | [] => ([], Ok [])
  | (k, c) :: chs' =>
      match propagate_star c (sky_column_of c) sed sky with
      | Err e => ((k, set_sky c (s_wl sed) sky) :: chs', Err e)
      | Ok (o, _) =>
          let (rest, r) := propagate_stars chs' sed sky in
          ((k, set_sky c (s_wl sed) sky) :: rest, let* tabs := r in Ok (star_columns o :: tabs))
      end
  end.
Definition propagate_target_light (chs : channels) (sed : sig) (sky : option sig) (t : mtable) : channels * res mtable :=
  match propagate_stars chs sed sky with
  | (chs, Err e) => (chs, Err e)
  | (chs, Ok tabs) =>
      match vstack_tables tabs with
      | Err e => (chs, Err e)
      | Ok (_, None) => (chs, Err AttributeError)
      | Ok (_, Some new) => (chs, Ok (snd (update_table t {| cols := new; meta := [] |})))
      end
  end.

(** ** ObserveTarget.execute, targetHandler.py:222-264.  LoadSource adds its entries to the header of the
    table before the light of the target is propagated (loadSource.py:179); the later updates merge
    tables without a header, so here the entries are given with the finished table. *)
Definition star_header (x : target) (st : star) (t : mtable) : option (sdict M_Source.meta) :=
  match add_star_metadata (x_star_name x) (x_magk x) (x_stellar x) st (map (fun e => (fst e, MText (snd e))) (meta t)) with
  | Ok h => Some h
  | Err _ => None
  end.
Definition load (s : setting) (x : target) : res star :=
  let* src := lookup (y_source s) in
  let* st := load_source (y_world s) (y_R s) (y_min s) (y_max s) (x_stellar x) src in
  let* _ := add_star_metadata (x_star_name x) (x_magk x) (x_stellar x) st [] in
  Ok st.
Definition foregrounds_of (s : setting) (g : tgt) : res tgt :=
  match y_foreground s with
  | None => Ok g
  | Some f => estimate_foregrounds (y_maps s) (y_R s) (y_min s) (y_max s) f g
  end.
Definition observe_target (s : setting) (chs : channels) (x : target) : channels * res target :=
  let (chs, r) := prepare_target s chs x in
  match (let* t := r in let* g := foregrounds_of s (x_sky x) in Ok (t, g)) with
  | Err e => (chs, Err e)
  | Ok (t, g) =>
      let (chs, r) := propagate_foreground_light chs (g_foreground g) t in
      match (let* t := r in let* st := load s x in Ok (t, st)) with
      | Err e => (chs, Err e)
      | Ok (t, st) =>
          let (chs, r) := propagate_target_light chs (st_sed st) (g_sky g) t in
          (chs, let* t := r in
                let* t := M_Noise.estimate_noise t (map (fun c => (h_noise (snd c), h_common (snd c))) chs) in
                Ok {| x_name := x_name x; x_stellar := x_stellar x; x_star_name := x_star_name x; x_magk := x_magk x;
                      x_sky := g; x_table := Some t; x_source := Some st; x_header := star_header x st t |})
      end
  end.
(** A history of observations with the same channels: what is left of the channels *)
Fixpoint after (chs : channels) (h : list (setting * target)) : channels :=
  match h with [] => chs | (s, x) :: h => after (fst (observe_target s chs x)) h end.
