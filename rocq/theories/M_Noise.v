(** Model of exorad/models/noise.py and exorad/tasks/noiseHandler.py.  Definitions only.
    Simplifications: values are numbers in fixed units (counts, s, micron; rates in ct/s),
    3600 is the number of seconds per hour; masked cells are read as NaN; the detector keys
    other than frame_time, f_well_depth, multiaccumM are assumed present; customNoise with a
    "data" table (noise.py:175-192) is not modelled. *)
From Verif Require Import Base XR M_Table.
Open Scope list_scope.

Definition num (c : cell) : res xr :=
  match c with Num x => Ok x | Txt _ => Err TypeError | Masked => Ok NaN end.
(** table[key][table["chName"] == name] as numbers *)
Definition select_num (name key : string) (t : table) : res (list xr) :=
  let* c := select name key t in mapM num c.

Record entry := { e_name : option string; e_value : option xr }.
Inductive custom := One (e : entry) | Many (es : list entry).

(** channel description (payload xml) *)
Record channel := {
  ch_name : string;
  well_depth : xr; f_well_depth : option xr; fixed_frame_time : option xr;
  freqNDR : xr; multiaccumM : option xr;
  dark_current : xr; read_noise : xr;
  noiseX : option xr;
  ch_custom : option custom }.

Definition ntable := list (string * list xr).

(** np.min *)
Fixpoint xminl (x : xr) (l : list xr) : xr := match l with [] => x | y :: l' => xminl (xmin x y) l' end.

(** frame_time, noise.py:13-51 *)
Definition frame_time (t : table) (ch : channel) : res ntable :=
  let* m := select_num (ch_name ch) "MaxSignal_inPixel" t in
  let sat := map (xdiv (well_depth ch)) m in
  match fixed_frame_time ch with
  | Some ft => Ok [("saturation_time", sat); ("frameTime", repeat ft (length sat))]
  | None =>
      match f_well_depth ch with
      | None => Err KeyError
      | Some f => match sat with
                  | [] => Err ValueError
                  | s :: sat' => Ok [("saturation_time", sat);
                                     ("frameTime", repeat (xmul f (xminl s sat')) (length sat))]
                  end
      end
  end.

(** multiaccum, noise.py:54-105: (read gain, shot gain) *)
Definition multiaccum (ch : channel) (t_frame : xr) : xr * xr :=
  let nRead := xfloor (xmul t_frame (freqNDR ch)) in
  let m := match multiaccumM ch with Some m => m | None => Fin 1 end in
  let tf := Fin 0 in
  let n := if xltb nRead (Fin 2) then Fin 2 else nRead in
  let n2 := xmul n n in
  let read_gain := xdiv (xdiv (xmul (Fin 12) (xsub n (Fin 1))) (xadd n2 n)) m in
  let corr := xdiv (xdiv (xmul (xdiv (xdiv (xmul (xdiv (Fin 5) (Fin 3)) (xsub (xmul m m) (Fin 1))) m)
                                     (xadd n2 (Fin 1))) tf) (xsub n (Fin 1))) t_frame in
  let shot_gain := xmul (xdiv (xdiv (xmul (Fin 6) (xadd n2 (Fin 1))) (xadd n2 n)) (Fin 5))
                        (xsub (Fin 1) corr) in
  (read_gain, shot_gain).

Definition hour : xr := Fin 3600.
(** keys of the table holding signals, noise.py:131, 162 *)
Definition signal_keys (t : table) : list string := filter (fun k => contains "signal" k) (names t).
Definition noise_key (k : string) : string := (k ++ "_noise")%string.

(** photon_noise, noise.py:108-143 *)
Definition photon_of (g s : xr) : xr := xsqrt (xdiv (xmul g s) hour).
Fixpoint photon_noise (t : table) (name : string) (g : xr) (keys : list string) (out : ntable) : res ntable :=
  match keys with
  | [] => Ok out
  | k :: keys' =>
      let* s := select_num name k t in
      photon_noise t name g keys' (sset (noise_key k) (map (photon_of g) s) out)
  end.

Definition zip_with {A B C} (f : A -> B -> C) (a : list A) (b : list B) : list C :=
  map (fun p => f (fst p) (snd p)) (combine a b).
Definition xsq (x : xr) : xr := xmul x x.

(** photon_noise_variance, noise.py:146-171 *)
Fixpoint photon_variance (keys : list string) (out : ntable) (acc : list xr) : res (list xr) :=
  match keys with
  | [] => Ok acc
  | k :: keys' =>
      match sget (noise_key k) out with
      | None => Err KeyError
      | Some c => photon_variance keys' out (zip_with (fun a x => xadd a (xmul x x)) acc c)
      end
  end.

(** add_custom_noise, noise.py:194-224, for a single entry; [out] is modified in place, so
    its state is returned also with an error *)
Definition ppm : xr := Fin (/ 1000000).
Definition add_entry (e : entry) (rows : nat) (out : ntable) : ntable * res unit :=
  match e_value e, e_name e with
  | Some v, Some n =>
      let c := xmul v ppm in
      let out1 := sset (noise_key n) (repeat c rows) out in
      match sget "total_noise" out1 with
      | None => (out1, Err KeyError)
      | Some t => (sset "total_noise" (zip_with (fun t c => xsqrt (xadd (xmul t t) (xmul c c))) t (repeat c rows)) out1, Ok tt)
      end
  | _, _ => (out, Err KeyError)
  end.
Fixpoint add_entries (es : list entry) (rows : nat) (out : ntable) : ntable * res unit :=
  match es with
  | [] => (out, Ok tt)
  | e :: es' => match add_entry e rows out with
                | (out', Ok _) => add_entries es' rows out'
                | r => r
                end
  end.
Definition add_custom (c : custom) (rows : nat) (out : ntable) : ntable * res unit :=
  match c with One e => add_entry e rows out | Many es => add_entries es rows out end.
(** try: add_custom_noise(section["customNoise"]) except KeyError, noiseHandler.py:93-104 *)
Definition try_custom (c : option custom) (rows : nat) (out : ntable) : ntable :=
  match c with None => out | Some c => fst (add_custom c rows out) end.

(** the part of noiseHandler.py:70-90 which sums the contributions up *)
Definition total_of (X dark var read signal : xr) : xr :=
  xdiv (xsqrt (xadd (xadd (xsq dark) (xmul (xadd (Fin 1) X) var)) (xsq read)))
       (if xeqb signal (Fin 0) then NaN else signal).

(** EstimateNoiseInChannel.execute, noiseHandler.py:27-108; [common] is the customNoise of
    the payload's common section, if any *)
Definition noise_in_channel (t : table) (ch : channel) (common : option custom) : res ntable :=
  let name := ch_name ch in
  let* out := frame_time t ch in
  let* ft := match sget "frameTime" out with Some ft => Ok ft | None => Err KeyError end in
  let* ft0 := match ft with [] => Err IndexError | x :: _ => Ok x end in
  let (read_gain, shot_gain) := multiaccum ch ft0 in
  let* out := photon_noise t name shot_gain (signal_keys t) out in
  let* window := select_num name "WindowSize" t in
  let dark := map (fun w => xsqrt (xdiv (xmul (xmul shot_gain w) (dark_current ch)) hour)) window in
  let out := sset "darkcurrent_noise" dark out in
  let read := zip_with (fun w f => xsqrt (xdiv (xdiv (xmul (xmul read_gain (xsq (read_noise ch))) w) f) hour)) window ft in
  let out := sset "read_noise" read out in
  let X := match noiseX ch with Some x => x | None => Fin 0 end in
  let* var := photon_variance (signal_keys t) out (repeat (Fin 0) (length ft)) in
  let* signal := select_num name "star_signal_inAperture" t in
  let total := map (fun p => let '(d, v, r, s) := p in total_of X d v r s)
                   (combine (combine (combine dark var) read) signal) in
  let out := sset "total_noise" total out in
  let* wl := select_num name "Wavelength" t in
  let out := try_custom common (length wl) out in
  Ok (try_custom (ch_custom ch) (length wl) out).

Definition to_table (o : ntable) : table := map (fun x => (fst x, map Num (snd x))) o.

(** EstimateNoise.execute, noiseHandler.py:132-158; each channel with its payload's common
    custom noise *)
Definition estimate_noise (target : mtable) (chans : list (channel * option custom)) : res mtable :=
  let* t1 := estimate_max_signal target in
  let* outs := mapM (fun ch => noise_in_channel (cols t1) (fst ch) (snd ch)) chans in
  let* (_, r) := vstack_tables (map to_table outs) in
  match r with
  | None => Err AttributeError   (* False.keys() *)
  | Some r => Ok (snd (update_table t1 {| cols := r; meta := [] |}))
  end.
