(** Model of the point spread functions of utils/exolib.py (193-508) and of the gain table of a
    spectrometer (models/instruments/spectrometer.py:190-237).  Definitions only.  An image is a list
    of rows; arithmetic is exact; lengths are in um. *)
From Verif Require Import Base XR M_Signal M_Optics M_Light M_Bins.
Open Scope list_scope.
Open Scope R_scope.

Notation image := (list (list R)).
Definition rows (im : image) : nat := length im.
Definition columns (im : image) : nat := match im with [] => O | r :: _ => length r end.
(** im[i, j], 0 outside *)
Definition pix (im : image) (i j : nat) : R := nth j (nth i im []) 0.
Definition rsum (l : list R) : R := fold_right Rplus 0 l.

(** ** The pixel as a kernel *)
(** load_standard_psf, exolib.py:193-195, and the Airy case, 246-247: pixel size in samples of the
    psf, [cdelt] the size of a sample in units of F lambda *)
Definition samples_per_pixel (delta f wl cdelt : R) : R := delta / (f * wl * cdelt).
(** np.modf: fractional and whole part, both with the sign of the argument *)
Definition modf (x : R) : R * Z :=
  let i := if Rlt_dec x 0 then (- Rfloor (- x))%Z else Rfloor x in (x - IZR i, i).
(** l[i] = f(l[i]) *)
Fixpoint update {A} (i : nat) (f : A -> A) (l : list A) : list A :=
  match l, i with
  | [], _ => []
  | x :: l, O => f x :: l
  | x :: l, S i => x :: update i f l
  end.
(** exolib.py:254-261 and 404-412 *)
Definition kernel (kx ky : R) : image :=
  let (fx, ix) := modf kx in
  let (fy, iy) := modf ky in
  let w := Z.to_nat (ix + 2) in
  let h := Z.to_nat (iy + 2) in
  let k := repeat (repeat 1 w) h in
  let k := map (update 0 (fun x => x * (0.5 * fx))) k in
  let k := map (update (w - 1) (fun x => x * (0.5 * fx))) k in
  let k := update 0 (map (fun x => x * (0.5 * fy))) k in
  update (h - 1) (map (fun x => x * (0.5 * fy))) k.

(** ** scipy.signal.convolve2d(ima, kernel, mode="same") *)
(** ima[m - p], 0 where there is none; [m - p] may be negative *)
Definition shifted (g : nat -> R) (n m p : nat) : R :=
  if Nat.leb p m then (if Nat.ltb (m - p) n then g (m - p)%nat else 0) else 0.
Definition convolve2d (im k : image) : image :=
  map (fun i => map (fun j =>
      rsum (map (fun p => rsum (map (fun q =>
        pix k p q * shifted (fun r => shifted (pix im r) (columns im) (j + (columns k - 1) / 2) q) (rows im) (i + (rows k - 1) / 2) p)
      (seq 0 (columns k)))) (seq 0 (rows k))))
    (seq 0 (columns im))) (seq 0 (rows im)).
(** binnedPSF and paosPSF: exolib.py:254-272, 404-417 *)
Definition binned_psf (im : image) (kx ky : R) : image * image := let k := kernel kx ky in (convolve2d im k, k).
(** pixel_based_psf, exolib.py:285-304: the image as it is; the kernel is the array [1.] *)

(** ** The gain table of a spectrometer *)
(** im.sum(axis=0) *)
Definition column_sums (im : image) : list R := map (fun j => rsum (map (fun r => nth j r 0) im)) (seq 0 (columns im)).
(** _gain_prf[k], spectrometer.py:220-236; [pixel] the kernel, None for a pixel based psf;
    [wfe] is WFErms *)
Definition strehl (wfe : option R) (wl : R) : R :=
  match wfe with Some w => exp (- (2 * PI * w / wl) ^ 2) | None => 1 end.
Definition prf_gain (prf : image) (pixel : option image) (wfe : option R) (wl : R) : res R :=
  let* m := match pixel with None => Ok 1 | Some k => array_max (column_sums k) end in
  let* g := array_max (map (fun x => x / m) (column_sums prf)) in
  Ok (g * strehl wfe wl).
(** np.linspace(min, max, 10), spectrometer.py:191-194 *)
Definition linspace (a b : R) (n : nat) : list R := map (fun k => a + INR k * ((b - a) / INR (n - 1))) (seq 0 n).
Definition gain_wavelengths (pix_wl : list R) : res (list R) :=
  match pix_wl with [] => Err ValueError | x :: l => Ok (linspace (rmin x l) (rmax x l) 10) end.

(** ** Which psf *)
(** np.abs(x - v).argmin(): the first of the nearest; ValueError when there is none *)
Fixpoint nearest_from (v : R) (best : nat) (d : R) (i : nat) (l : list R) : nat :=
  match l with
  | [] => best
  | x :: l => if Rltb (Rabs (x - v)) d then nearest_from v i (Rabs (x - v)) (S i) l else nearest_from v best d (S i) l
  end.
Definition argnearest (v : R) (l : list R) : res nat :=
  match l with [] => Err ValueError | x :: l => Ok (nearest_from v 0 (Rabs (x - v)) 1 l) end.
(** A directory of psf files with their header WAVELEN: exolib.py:223-233, 291-301 *)
Definition directory_psf {A} (files : list (R * A)) (wl : R) : res A :=
  let* i := argnearest wl (map fst files) in
  match nth_error files i with Some f => Ok (snd f) | None => Err IndexError end.

(** interpolate_paos_psf, exolib.py:323-381.  The file holds one group per wavelength under the
    text of it; [load] is load_paos_psf(fd[f"{wl}"]) and fails when there is no such group.  A group:
    image, sample sizes dx, dy, extent and f-number. *)
Record paos := { p_ima : image; p_dx : R; p_dy : R; p_extent : list R; p_fratio : R }.
Definition paos_indices (w : list R) (wl : R) : res (nat * Z) :=
  match w with
  | [] | [_] => Err ValueError
  | x :: l =>
      let* i := argnearest wl w in
      let above := Rltb wl (nth i w 0) in
      let i1 := (if negb (Rltb wl (rmin x l)) && negb (Rltb (rmax x l) wl)
                 then (if above then Z.of_nat i - 1 else Z.of_nat i + 1)
                 else (if above then Z.of_nat i + 1 else Z.of_nat i - 1))%Z in
      Ok (i, i1)
  end.
(** Python's w[i], negative indices from the end *)
Definition index (w : list R) (i : Z) : res R :=
  let i := if Z.ltb i 0 then (i + Z.of_nat (length w))%Z else i in
  if Z.ltb i 0 then Err IndexError else match nth_error w (Z.to_nat i) with Some x => Ok x | None => Err IndexError end.
(** interp1d([wl0, wl1], [y0, y1], fill_value="extrapolate")(wl) *)
Definition between_two (wl0 wl1 y0 y1 wl : R) : R :=
  if Rltb wl1 wl0 then line (wl1, y1) (wl0, y0) wl else line (wl0, y0) (wl1, y1) wl.
Fixpoint map2 {A B C} (f : A -> B -> C) (a : list A) (b : list B) : list C :=
  match a, b with x :: a, y :: b => f x y :: map2 f a b | _, _ => [] end.
Definition same_length {A B} (a : list A) (b : list B) : bool := Nat.eqb (length a) (length b).
(** [ima0, ima1] as an array: ValueError unless of the same shape *)
Definition same_shape (a b : image) : bool := same_length a b && forallb (fun p => same_length (fst p) (snd p)) (combine a b).
Definition interpolate_paos (w : list R) (load : R -> res paos) (wl : R) : res paos :=
  let* (i0, i1) := paos_indices w wl in
  let* wl0 := index w (Z.of_nat i0) in
  let* wl1 := index w i1 in
  let* p0 := load wl0 in
  let* p1 := load wl1 in
  if negb (same_shape (p_ima p0) (p_ima p1)) then Err ValueError
  else if negb (same_length (p_extent p0) (p_extent p1)) then Err ValueError
  else let f := fun a b => between_two wl0 wl1 a b wl in
       Ok {| p_ima := map2 (map2 f) (p_ima p0) (p_ima p1); p_dx := f (p_dx p0) (p_dx p1); p_dy := f (p_dy p0) (p_dy p1);
             p_extent := map2 f (p_extent p0) (p_extent p1); p_fratio := f (p_fratio p0) (p_fratio p1) |}.
(** paosPSF, exolib.py:384-417: the group of the wavelength itself when its text is a key of the file;
    [w] is sorted.  delta_pix / dx is infinite for a sample of size 0, and np.ones fails. *)
Definition paos_psf (w : list R) (has : R -> bool) (load : R -> res paos) (wl delta : R) : res (image * image) :=
  let* p := if has wl then load wl else interpolate_paos w load wl in
  if Req_EM_T (p_dx p) 0 then Err OtherError
  else if Req_EM_T (p_dy p) 0 then Err OtherError
  else Ok (binned_psf (p_ima p) (delta / p_dx p) (delta / p_dy p)).

(** ** Aperture radius, exolib.py:478-508 *)
(** the loop from radius [i]: the radii with their encircled energies; [enc] is encircled_energy
    (photutils), None: not finished after [fuel] rounds *)
Fixpoint grow (enc : nat -> R) (goal : R) (fuel i : nat) : option (list (R * R)) :=
  match fuel with
  | O => None
  | S fuel => let e := enc i in
              if Rltb e goal then match grow enc goal fuel (S i) with None => None | Some l => Some ((e, INR i) :: l) end
              else Some [(e, INR i)]
  end.
Definition find_aperture_radius (enc : nat -> R) (eec : R) (fuel : nat) : option (res R) :=
  if Rltb 0 (eec + 0.02) then
    match grow enc (eec + 0.02) fuel 1 with
    | None => None
    | Some l => Some (interp_within l eec)
    end
  else Some (Err ValueError).
