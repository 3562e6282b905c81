(** Specification of the noise estimate, over the reals. *)
From Verif Require Import Base XR M_Table M_Noise.
Open Scope list_scope.
Open Scope R_scope.

(** The column whose row i is [f i] *)
Definition column {A} (n : nat) (f : nat -> A) : list A := map f (seq 0 n).
Fixpoint sum_over {A} (f : A -> R) (l : list A) : R :=
  match l with [] => 0 | a :: l' => f a + sum_over f l' end.

(** [holds t name n keys v]: the rows of channel [name] are [n], and row i of column [key] is
    the non-negative number [v key i], for the given keys. *)
Definition holds (t : table) (name : string) (n : nat) (keys : list string) (v : string -> nat -> R) : Prop :=
  forall k, In k keys ->
    select name k t = Ok (column n (fun i => Num (Fin (v k i)))) /\
    forall i, (i < n)%nat -> 0 <= v k i.
Definition needed : list string := ["MaxSignal_inPixel"; "WindowSize"; "star_signal_inAperture"; "Wavelength"].

(** A detector with physical parameters *)
Record detector := {
  d_well : R; d_f : R; d_freq : R; d_M : R; d_dark : R; d_read : R; d_X : R }.
Definition physical (d : detector) : Prop :=
  0 < d_well d /\ 0 < d_f d /\ 0 <= d_freq d /\ 0 < d_M d /\ 0 <= d_dark d /\ 0 <= d_read d /\ 0 <= d_X d.
(** [describes ch d]: the description [ch] has the parameters [d] (M and NoiseX are 1 and 0
    when they are not given) *)
Definition describes (ch : channel) (d : detector) : Prop :=
  well_depth ch = Fin (d_well d) /\ (fixed_frame_time ch = None -> f_well_depth ch = Some (Fin (d_f d))) /\ freqNDR ch = Fin (d_freq d) /\
  match multiaccumM ch with Some m => m = Fin (d_M d) | None => d_M d = 1 end /\
  dark_current ch = Fin (d_dark d) /\ read_noise ch = Fin (d_read d) /\
  match noiseX ch with Some x => x = Fin (d_X d) | None => d_X d = 0 end.

(** Up-the-ramp reads and gains *)
Definition reads (t freq : R) : R := IZR (Z.max 2 (Rfloor (t * freq))).
Definition read_gain (n M : R) : R := 12 * (n - 1) / (n ^ 2 + n) / M.
Definition shot_gain (n : R) : R := 6 * (n ^ 2 + 1) / (5 * (n ^ 2 + n)).

(** Squared contributions of a row, in (ct/s)^2 hr *)
Definition photon2 (g s : R) : R := g * s / 3600.
Definition dark2 (g w dc : R) : R := g * w * dc / 3600.
Definition read2 (rg rn w tf : R) : R := rg * rn ^ 2 * w / tf / 3600.
(** Total noise relative to the star signal *)
Definition total_noise (X dark_sq photon_sq read_sq star : R) : R :=
  sqrt (dark_sq + (1 + X) * photon_sq + read_sq) / star.
(** Total noise of row [i] for frame time [tf] *)
Definition row_noise (d : detector) (sigs : list string) (v : string -> nat -> R) (tf : R) (i : nat) : R :=
  let n := reads tf (d_freq d) in
  total_noise (d_X d) (dark2 (shot_gain n) (v "WindowSize" i) (d_dark d))
    (sum_over (fun k => photon2 (shot_gain n) (v k i)) sigs)
    (read2 (read_gain n (d_M d)) (d_read d) (v "WindowSize" i) tf) (v "star_signal_inAperture" i).

(** Custom noise: the entries of a section; those in effect are the ones before the first
    entry without a name or a value.  The name "total" is excluded. *)
Definition entries (c : option custom) : list entry :=
  match c with None => [] | Some (One e) => [e] | Some (Many es) => es end.
Definition valid_entry (e : entry) : Prop :=
  e_name e <> Some "total"%string /\ match e_value e with Some x => is_fin x | None => True end.
Fixpoint in_effect (es : list entry) : list R :=
  match es with
  | e :: es' => match e_name e, e_value e with
                | Some _, Some (Fin x) => x :: in_effect es'
                | _, _ => []
                end
  | [] => []
  end.
(** Sum of the squares of contributions given in ppm *)
Definition ppm2 (xs : list R) : R := sum_over (fun x => (x / 1000000) ^ 2) xs.
Definition quadrature (b : xr) (s : R) : xr :=
  match b with Fin r => Fin (sqrt (r ^ 2 + s)) | _ => b end.
Definition with_custom (ch : channel) (c : option custom) : channel :=
  {| ch_name := ch_name ch; well_depth := well_depth ch; f_well_depth := f_well_depth ch;
     fixed_frame_time := fixed_frame_time ch; freqNDR := freqNDR ch; multiaccumM := multiaccumM ch;
     dark_current := dark_current ch; read_noise := read_noise ch; noiseX := noiseX ch; ch_custom := c |}.
(** Columns counted as signals: the name contains "signal" *)
Definition signal_columns (t : table) : list string := filter (fun k => contains "signal" k) (names t).
(** Cell [i] of column [c] *)
Definition entry_at (o : ntable) (c : string) (i : nat) (x : xr) : Prop :=
  exists col, sget c o = Some col /\ nth_error col i = Some x.
(** The frame time is given, or some pixel of the channel receives light *)
Definition frame_time_defined (ch : channel) (n : nat) (v : string -> nat -> R) : Prop :=
  match fixed_frame_time ch with
  | Some ft => exists r, ft = Fin r /\ 0 < r
  | None => exists i, (i < n)%nat /\ 0 < v "MaxSignal_inPixel"%string i
  end.
