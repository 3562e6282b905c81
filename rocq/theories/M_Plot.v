(** Model of exorad/utils/plotter.py (the Plotter class and the command exorad-plot), of
    efficiency_plot (exorad/exorad.py:24-37) and of the plots of observed targets
    (exorad/tasks/targetHandler.py:294-306).  Definitions only.
    What is modelled of a figure is its data: title, curves with labels, bands, ticks of the
    wavelength axis.  Simplifications: colours, scales, legends and layout are left out; drawing
    and writing an image do not fail by themselves; a column of text among the drawn ones ends in
    a TypeError; the rows of a table are as many in every column. *)
From Verif Require Import Base XR PyStr M_Util M_Hdf5 M_Payload.
Open Scope list_scope.

(** ** The figure of a table *)
(** A column: numbers, with whether their unit is hr**0.5; or text. *)
Inductive pcolumn := Numbers (root_hour : bool) (values : list xr) | Texts (values : list string).
(** A table: meta["name"] if present, and the columns *)
Record ptable := { p_name : option string; p_cols : list (string * pcolumn) }.
(** A curve: its label and its points *)
Record curve := { v_label : string; v_x : list xr; v_y : list xr }.
Record panel := { a_curves : list curve; a_bands : list (xr * xr); a_ticks : list xr }.
Record figure := { g_title : string; g_signal : panel; g_noise : panel }.

(** table[name] where numbers are needed *)
Definition column (t : ptable) (name : string) : res (list xr) :=
  match sget name (p_cols t) with
  | None => Err KeyError
  | Some (Numbers _ l) => Ok l
  | Some (Texts _) => Err TypeError
  end.
(** Python's min and max of an iterable: the first of the smallest (largest) *)
Definition py_min (l : list xr) : res xr :=
  match l with [] => Err ValueError | x :: l' => Ok (fold_left (fun m y => if xltb y m then y else m) l' x) end.
Definition py_max (l : list xr) : res xr :=
  match l with [] => Err ValueError | x :: l' => Ok (fold_left (fun m y => if xltb m y then y else m) l' x) end.
(** column[np.where(table["chName"] == ch)] *)
Definition rows_of (ch : string) (chs : list string) (l : list xr) : list xr :=
  map snd (filter (fun p => String.eqb (fst p) ch) (combine chs l)).

Section Plot.
  (** the order in which the elements of a set of names are enumerated *)
  Variable enumerate : list string -> list string.

  (** one band, plotter.py:60-80 *)
  Definition band (t : ptable) (chs : list string) (ch : string) : res (xr * xr) :=
    let* l := column t "LeftBinEdge" in
    let* a := py_min (rows_of ch chs l) in
    let* r := column t "RightBinEdge" in
    let* b := py_max (rows_of ch chs r) in
    Ok (a, b).
  (** plot_bands, plotter.py:39-91 (channel_edges=True): the bands and the ticks; the last
      wl_max does not exist without channels *)
  Definition plot_bands (t : ptable) : res (list (xr * xr) * list xr) :=
    match sget "chName" (p_cols t) with
    | None => Err KeyError
    | Some (Numbers _ _) => Err TypeError
    | Some (Texts chs) =>
        let* bs := mapM (band t chs) (enumerate chs) in
        match rev bs with
        | [] => Err UnboundLocalError
        | (_, last) :: _ => Ok (bs, map fst bs ++ [last])
        end
    end.

  (** plot_signal, plotter.py:295-363 *)
  Definition is_signal (n : string) : bool := contains "signal" n && negb (contains "noise" n).
  Definition signal_curve (t : ptable) (n : string) : res curve :=
    let* x := column t "Wavelength" in
    let* y := column t n in
    Ok {| v_label := n; v_x := x; v_y := y |}.
  Definition plot_signal (t : ptable) : res panel :=
    let* cs := mapM (signal_curve t) (filter is_signal (map fst (p_cols t))) in
    let* (bs, ticks) := plot_bands t in
    Ok {| a_curves := cs; a_bands := bs; a_ticks := ticks |}.

  (** plot_noise, plotter.py:213-293 *)
  Definition is_noise (n : string) : bool := contains "noise" n || contains "custom" n.
  Definition divide (a b : list xr) : list xr := map (fun p => xdiv (fst p) (snd p)) (combine a b).
  Definition noise_curve (t : ptable) (n : string) : res curve :=
    if String.eqb n "total_noise" then
      let* x := column t "Wavelength" in
      let* y := column t n in
      Ok {| v_label := "total_noise"; v_x := x; v_y := y |}
    else
      let* y :=
        match sget n (p_cols t) with
        | None => Err KeyError
        | Some (Numbers true l) => Ok l
        | Some (Numbers false l) =>
            let* s := column t "star_signal_inAperture" in Ok (divide l s)
        | Some (Texts _) =>
            let* _ := column t "star_signal_inAperture" in Err TypeError
        end in
      let* x := column t "Wavelength" in
      Ok {| v_label := n; v_x := x; v_y := y |}.
  Definition plot_noise (t : ptable) : res panel :=
    let* cs := mapM (noise_curve t) (filter is_noise (map fst (p_cols t))) in
    let* (bs, ticks) := plot_bands t in
    Ok {| a_curves := cs; a_bands := bs; a_ticks := ticks |}.

  (** plot_table, plotter.py:365-394 *)
  Definition plot_table (t : ptable) : res figure :=
    match p_name t with
    | None => Err KeyError
    | Some n =>
        let* s := plot_signal t in
        let* z := plot_noise t in
        Ok {| g_title := n; g_signal := s; g_noise := z |}
    end.

  (** save_fig, plotter.py:396-420: without a figure the AttributeError is caught.  Images
      written: path and figure, in the order of writing. *)
  Definition save_fig {F} (fig : option F) (path : string) : list (string * F) :=
    match fig with Some f => [(path, f)] | None => [] end.

  (** os.path.join(dir, name) for a relative name *)
  Definition path_join (dir name : string) : string :=
    if String.eqb dir "" then name
    else if ends_with "/" dir then (dir ++ name)%string else (dir ++ "/" ++ name)%string.

  (** ** The command exorad-plot, plotter.py:423-514 *)
  (** list[n] *)
  Definition py_index {A} (l : list A) (n : Z) : res A :=
    let i := if Z.ltb n 0 then (n + Z.of_nat (length l))%Z else n in
    if Z.ltb i 0 then Err IndexError
    else match nth_error l (Z.to_nat i) with Some x => Ok x | None => Err IndexError end.

  Section Command.
    Variable V : Type.
    (** what astropy makes of the rows and the header of a stored table *)
    Variable decode : lval V -> res ptable.
    Notation file := (list (string * h5 V)).

    (** one target, plotter.py:505-514 *)
    Definition plot_target (dir : file) (out target : string) : res (string * figure) :=
      let* td := subgroup dir target in
      let* tab := subgroup td "table" in
      let* raw := read_table tab "table" in
      let* t := decode raw in
      let* f := plot_table t in
      Ok (path_join out (target ++ ".png"), f).
    Fixpoint plot_targets (dir : file) (out : string) (ts : list string) : list (string * figure) * res unit :=
      match ts with
      | [] => ([], Ok tt)
      | t :: ts' =>
          match plot_target dir out t with
          | Err e => ([], Err e)
          | Ok x => let '(l, r) := plot_targets dir out ts' in (x :: l, r)
          end
      end.
    (** the targets to draw, plotter.py:487-503.  h5py lists names alphabetically. *)
    Definition chosen (number name : string) (dir : file) : res (list string) :=
      let keys := map fst (sort_names dir) in
      match parse_range number (Z.of_nat (length keys)) with
      | None => Err TypeError
      | Some ids =>
          let* ts := mapM (py_index keys) ids in
          Ok (if String.eqb name "None" then ts else filter (fun t => String.eqb t name) ts)
      end.
    (** main: [number] and [name] are the options -n and -t with their defaults "all" and
        "None"; [f] is the input file, None if it cannot be opened.  The output directory exists
        afterwards in every case (478-480). *)
    Definition plot_main (f : option file) (out number name : string) : list (string * figure) * res unit :=
      match f with
      | None => ([], Err OSError)
      | Some f =>
          if negb (String.eqb number "all") && negb (String.eqb name "None") then ([], Err ValueError)
          else match subgroup f "targets" with
               | Err e => ([], Err e)
               | Ok dir => match chosen number name dir with
                           | Err e => ([], Err e)
                           | Ok ts => plot_targets dir out ts
                           end
               end
      end.
  End Command.

  (** ** Plots while observing, targetHandler.py:294-306 *)
  (** os.path.join(None, ...) raises (TypeError), after drawing *)
  Definition plot_observed (out_dir : option string) (name : string) (t : ptable) : list (string * figure) * res unit :=
    match plot_table t with
    | Err e => ([], Err e)
    | Ok f => match out_dir with
              | None => ([], Err TypeError)
              | Some d => (save_fig (Some f) (path_join d (name ++ ".png")), Ok tt)
              end
    end.

  (** ** The efficiency of the payload *)
  (** the curves of one channel: transmission, quantum efficiency and their product, each with
      its wavelengths *)
  Record efficiency (V : Type) := { y_trans : V * lval V; y_qe : V * lval V; y_pce : V * lval V }.
  Record eff_figure (V : Type) := { z_channels : list (efficiency V); z_bands : list (xr * xr); z_ticks : list xr }.
  Section Efficiency.
    Variable V : Type.
    Variable unit_ok : string -> bool.
    Variable dims : string -> list Z.
    Variable check : V -> lval V -> res unit.
    (** Signal.spectral_rebin on new wavelengths, and the product of two arrays *)
    Variable rebin : V * lval V -> V -> res (lval V).
    Variable times : lval V -> lval V -> res (lval V).

    (** one channel, plotter.py:118-148: the first signal becomes [pce], the second is rebinned on
        its wavelengths (after having been drawn) and multiplied into it *)
    Definition efficiency_of (built : list (string * lval V)) : res (efficiency V) :=
      let* tr := stored_signal unit_ok dims check built "transmission_data" in
      let* qe := stored_signal unit_ok dims check built "qe_data" in
      let* q := rebin qe (fst tr) in
      let* p := times (snd tr) q in
      Ok {| y_trans := tr; y_qe := qe; y_pce := (fst tr, p) |}.
    (** plot_efficiency, plotter.py:93-211: without channels an error is logged and there is no
        figure (the branch for a table alone, 171-186, cannot be reached) *)
    Definition plot_efficiency (channels : list (string * list (string * lval V))) (t : ptable)
      : res (option (eff_figure V)) :=
      match channels with
      | [] => Ok None
      | _ =>
          let* es := mapM (fun c => efficiency_of (snd c)) channels in
          let* (bs, ticks) := plot_bands t in
          Ok (Some {| z_channels := es; z_bands := bs; z_ticks := ticks |})
      end.
    (** efficiency_plot, exorad.py:24-37, with a directory; [merged] is the merged table *)
    Definition efficiency_plot (channels : list (string * list (string * lval V))) (merged : res ptable) (dir : string)
      : res (list (string * eff_figure V)) :=
      let* t := merged in
      let* f := plot_efficiency channels t in
      Ok (save_fig f (path_join dir "efficiency.png")).
  End Efficiency.
End Plot.
Arguments save_fig {F}. Arguments plot_target _ {V}. Arguments plot_targets _ {V}. Arguments chosen {V}.
Arguments plot_main _ {V}. Arguments y_trans {V}. Arguments y_qe {V}. Arguments y_pce {V}. Arguments z_channels {V}.
Arguments z_bands {V}. Arguments z_ticks {V}. Arguments efficiency_of {V}. Arguments plot_efficiency _ {V}.
Arguments efficiency_plot _ {V}.
