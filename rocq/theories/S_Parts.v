(** Vocabulary: what a built channel is made of. *)
From Coq Require Import Reals.
From Verif Require Import Base PyStr XR M_Signal M_Optics M_Light M_Bins M_Psf M_Source S_Signal S_Optics S_Light S_Bins S_Psf.
From Verif Require Import M_Table M_Observe M_Build.
Open Scope list_scope.
Open Scope R_scope.

(** The point spread function of a channel at [wl] um and the pixel in its samples (none if it is
    given in pixels already): by the format of the file, or an Airy disc without a file *)
Inductive psf_used (w : outer) (d : description) (wl : R) : image -> option image -> Prop :=
| Psf_in_pixels p im : d_psf d = Some p -> f_format p = Some "pixel_based"%string -> u_pixel_based w (f_file p) wl = Ok im -> psf_used w d wl im None
| Psf_paos p im k : d_psf d = Some p -> f_format p = Some "paos"%string -> u_paos w (f_file p) wl (d_delta d) = Ok (im, k) -> psf_used w d wl im (Some k)
| Psf_other p fx fy im k : d_psf d = Some p -> f_format p <> Some "pixel_based"%string -> f_format p <> Some "paos"%string -> d_fx d = Some fx -> d_fy d = Some fy ->
    u_binned w (Some (f_file p)) fx fy wl (d_delta d) = Ok (im, k) -> psf_used w d wl im (Some k)
| Psf_airy fx fy im k : d_psf d = None -> d_fx d = Some fx -> d_fy d = Some fy -> u_binned w None fx fy wl (d_delta d) = Ok (im, k) -> psf_used w d wl im (Some k).
Definition in_pixels (d : description) : Prop := exists p, d_psf d = Some p /\ f_format p = Some "pixel_based"%string.
(** The window of a photometer with the image [im]: a radius squared, or the circle holding a share of
    the light, in pixels or in units of F-number and wavelength *)
Definition window_is (w : outer) (fuel : nat) (d : description) (im : image) (size : R) : Prop :=
  let wl := (d_min d + d_max d) / 2 in
  exists a, d_aperture d = Some a /\
  (in_pixels d ->
     (forall r, a_radius a = Some r -> size = r * r) /\
     (a_radius a = None -> exists e r, a_ene a = Some e /\ find_aperture_radius (u_encircled w im 1 1 1) e fuel = Some (Ok r) /\ size = PI * (r * r))) /\
  (~ in_pixels d -> exists fx fy, d_fx d = Some fx /\ d_fy d = Some fy /\
     (forall r, a_radius a = Some r -> size = r * r * (fx * wl / d_delta d) * (fy * wl / d_delta d)) /\
     (a_radius a = None -> exists e r, a_ene a = Some e /\ find_aperture_radius (u_encircled w im fx fy wl) e fuel = Some (Ok r) /\ size = PI * (r * r) * (fx * wl / d_delta d) * (fy * wl / d_delta d))).
(** The share of the light in the brightest column of an image, over that of the pixel; the Strehl ratio *)
Definition gain_is (im : image) (k : option image) (wfe : option R) (wl g : R) : Prop :=
  exists m x, match k with None => m = 1 | Some k => greatest m (map (column_light k) (seq 0 (length (hd [] k)))) end /\
  greatest x (map (fun j => column_light im j / m) (seq 0 (length (hd [] im)))) /\ g = x * match wfe with Some s => exp (- (2 * PI * s / wl) ^ 2) | None => 1 end.

(** ** Emission *)
Definition warm (e : element) : bool := match e_temp e with Some _ => true | None => false end.
(** the light of [e], of [T] K, behind [rest] *)
Definition arriving (wl : list R) (e : element) (T : R) (rest : list element) (rad : list R) : Prop :=
  length rad = length wl /\ forall i, (i < length wl)%nat -> at_ i rad = at_ i (e_em e) * planck (at_ i wl) T * product (map (fun x => at_ i (e_tr x)) rest).
(** maximum per pixel and signal, bin by bin, of light that does not come through a slit *)
Definition direct_light (b : built) (wl qe rad : list R) (p : position) (out : list R * list R) : Prop :=
  let pixel := trapezia wl (counts_per_um_sr (b_delta b) rad qe wl) * angle_for p (b_omega b) in
  fst out = map (fun _ => pixel) (b_size b) /\ snd out = map (fun w => pixel * w) (b_size b).
(** and of light through a slit *)
Definition slit_light (b : built) (bins : list (R * R)) (slit : R) (qe light : sig) (out : list R * list R) : Prop :=
  exists wl dwl widths rad q n, b_pix_wl b = Some wl /\ b_pix_width b = Some dwl /\ b_spatial b = Some widths
  /\ resample wl light = Ok rad /\ interp1d (s_wl qe) (s_data qe) wl = Ok q
  /\ pixels_in (slit / b_delta b) n /\ (1 <= n <= length wl)%nat
  /\ let spread i := sum_below (length wl) (fun j => if reaches n i j then counts_per_um_sr (b_delta b) (s_data rad) q wl j * b_omega b * at_ j dwl else 0) in
     forall k e, nth_error bins k = Some e ->
          ((k < length widths)%nat -> at_ k (snd out) = sum_below (length wl) (fun i => if in_bin_right e (at_ i wl) then spread i else 0) * at_ k widths)
          /\ (exists i, (i < length wl)%nat /\ in_bin_right e (at_ i wl) = true /\ at_ k (fst out) = spread i)
          /\ forall i, (i < length wl)%nat -> in_bin_right e (at_ i wl) = true -> spread i <= at_ k (fst out).
