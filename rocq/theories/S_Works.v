(** Vocabulary: channels that work in a range of wavelengths. *)
From Verif Require Import Base XR M_Signal M_Optics M_Light M_Bins M_Star S_Signal S_Optics S_Light S_Bins S_Star S_Success.
From Verif Require M_Noise.
From Verif Require Import S_Noise M_Table M_Observe.
Open Scope list_scope.
Open Scope R_scope.

(** Finite numbers, none negative *)
Definition amounts_ (col : list cell) : Prop := forall v, In v col -> exists r, v = Num (Fin r) /\ 0 <= r.
(** numbers between 0 and 1 *)
Definition fractions (l : list R) : Prop := forall x, In x l -> 0 <= x <= 1.
(** The detector and the table of the channel hold sensible numbers. *)
Definition sensible_detector (c : chan) : Prop :=
  (exists det, describes (h_noise c) det /\ physical det) /\
  forall k col, sget k (cols (h_table c)) = Some col -> contains "signal" k = true \/ contains "Max" k = true \/ k = "Wavelength"%string \/ k = "WindowSize"%string -> amounts_ col.
(** Diffuse light given at the wavelengths [wl] goes through. *)
Definition lets_diffuse_light (b : built) (bins : list (R * R)) (wl : list R) : Prop :=
  nonneg (s_data (b_qe b)) /\ nonneg (s_data (b_tr b)) /\ nonneg (b_size b) /\ 0 <= b_omega b <= PI /\ curve (b_tr b) /\ curve (b_qe b) /\ overlaps wl (b_tr b) /\
  (forall pw, b_pix_wl b = Some pw -> nonneg pw) /\ (forall pd, b_pix_width b = Some pd -> nonneg pd) /\ (forall w, b_spatial b = Some w -> nonneg w) /\
  match b_slit b with
  | None => overlaps wl (b_qe b)
  | Some slit => s_wl (b_qe b) <> [] /\ exists pw pd widths, b_pix_wl b = Some pw /\ b_pix_width b = Some pd /\ b_spatial b = Some widths /\
      wavelength_grid pw /\ length pd = length pw /\ overlaps pw {| s_wl := wl; s_data := wl |} /\ slit_fits (b_delta b) slit pw bins
  end.
(** The light of a star given at the wavelengths [wl] goes through. *)
Definition lets_star_light (c : M_Star.channel) (k : kind) (wl : list R) : Prop :=
  0 <= c_area c /\ fractions (s_data (c_qe c)) /\ fractions (s_data (c_tr c)) /\ curve (c_qe c) /\ curve (c_tr c) /\ overlaps wl (c_qe c) /\ overlaps wl (c_tr c) /\ c_force c <> None /\
  match k with
  | Phot a prf => prf <> [] /\ nonneg prf /\ exists p, a = Some p /\ (forall f, a_correction p = Some f -> 0 <= f) /\ (forall f, a_correction p = None -> a_ene p = Some f -> 0 <= f)
  | Spec pw pd gain => wavelength_grid pw /\ length pd = length pw /\ nonneg pd /\ overlaps pw {| s_wl := wl; s_data := wl |} /\
      (forall w, In w pw -> exists g, gain w = Ok g) /\ (forall w g, gain w = Ok g -> 0 <= g) /\ (forall b, In b (c_bins c) -> has_pixel b pw)
  end.
Definition works_at (wl : list R) (c : chan) : Prop :=
  sensible_detector c /\ lets_diffuse_light (h_light c) (map (fun b => (left_edge b, right_edge b)) (c_bins (h_star c))) wl /\ lets_star_light (h_star c) (h_kind c) wl.
