(** Detectors of lower quantum efficiency: building and propagation. *)
From Coq Require Import Reals Lra Psatz Lia.
From Verif Require Import Base Dict PyStr XR M_Signal M_Optics M_Light M_Bins M_Psf M_Omega M_Star M_Source M_Foreground S_Signal S_Optics S_Light S_Bins S_Star S_Success S_Foreground L_Signal L_Optics L_Light L_Bins P_Optics P_Bins P_Windows P_Light P_Success P_Omega P_Star P_Source P_Foreground.
From Verif Require M_Noise P_Noise L_Foreground S_Source P_Star.
From Verif Require Import S_Noise L_Noise.
From Verif Require Import M_Table L_Table P_Table M_Observe S_Observe L_Observe L_Stages L_Outcome S_Works S_Complete P_Observe P_Outcome P_Works P_Complete P_Instance M_Build S_Build S_Ready L_Build L_Ready P_Build P_Ready P_Mission P_Telescope S_Full P_Full S_Bright L_Bright P_Bright P_BrightMission L_Compare S_Area P_Area S_Glow L_Glow P_Glow S_Filter L_Filter S_Faded.
Open Scope list_scope.
Open Scope R_scope.

(** ** The star *)
Definition faded (k : R) (c : channel) : channel :=
  {| c_bins := c_bins c; c_force := c_force c; c_min := c_min c; c_max := c_max c; c_qe := lit k (c_qe c); c_tr := c_tr c; c_area := c_area c; c_sky := c_sky c |}.
Lemma efficiency_faded k c wl sky : get_efficiency (faded k c) wl sky = match get_efficiency c wl sky with Ok (e, t) => Ok ((scaled k (fst e), snd e), t) | Err x => Err x end.
Proof.
  unfold get_efficiency. cbn [faded c_qe c_tr c_bins c_force c_min c_max c_sky]. unfold lit. rewrite resample_scale. replace {| s_wl := s_wl (c_qe c); s_data := s_data (c_qe c) |} with (c_qe c) by (now destruct (c_qe c)).
  destruct (resample wl (c_qe c)) as [q|]; cbn [bind s_data]; auto. destruct (resample wl (c_tr c)) as [tr|]; cbn [bind]; auto. destruct sky as [s|]; auto. destruct (get_transmission_column _ _ _ _ s) as [[t s']|]; cbn [bind]; auto. destruct (resample wl s') as [s2|]; cbn [bind]; auto. destruct (times _ _); reflexivity.
Qed.
(** As far as the star is concerned, it is a smaller telescope. *)
Lemma photometer_faded k c a prf star sky : propagate_photometer (faded k c) a prf star sky = propagate_photometer (wide k c) a prf star sky.
Proof.
  unfold propagate_photometer. rewrite efficiency_faded. change (get_efficiency (wide k c)) with (get_efficiency c). change (force_edges (wide k c)) with (force_edges c). change (force_edges (faded k c)) with (force_edges c). cbn [wide faded c_area].
  destruct (get_efficiency c (s_wl star) sky) as [[e t]|]; cbn [bind]; auto. cbn [fst snd]. destruct (force_edges c (s_wl star) (snd e)) as [[tr w]|]; cbn [bind]; auto.
  destruct (times w (s_data star)) as [f|]; cbn [bind]; auto. rewrite times_scale_l. destruct (times (fst e) (s_data star)) as [x|]; cbn [bind]; auto. rewrite times_scale_l. destruct (times x tr) as [x2|]; cbn [bind]; auto. rewrite times_scale_l. destruct (times x2 _) as [x3|]; cbn [bind]; auto. rewrite trapz_scale.
  replace (c_area c * (trapz (s_wl star) x3 * k)) with (k * c_area c * trapz (s_wl star) x3) by ring. reflexivity.
Qed.
Lemma spectrometer_faded k c pw pd gain star sky : propagate_spectrometer (faded k c) pw pd gain star sky = propagate_spectrometer (wide k c) pw pd gain star sky.
Proof.
  unfold propagate_spectrometer. rewrite efficiency_faded. change (get_efficiency (wide k c)) with (get_efficiency c). change (force_edges (wide k c)) with (force_edges c). change (force_edges (faded k c)) with (force_edges c). cbn [wide faded c_area c_bins].
  destruct (get_efficiency c (s_wl star) sky) as [[e t]|]; cbn [bind]; auto. cbn [fst snd]. destruct (force_edges c (s_wl star) (snd e)) as [[tr w]|]; cbn [bind]; auto.
  assert (X : times (scaled (c_area c) tr) (scaled k (fst e)) = times (scaled (k * c_area c) tr) (fst e)) by (rewrite scaled_scaled, (times_scale_l k), times_scale_r; reflexivity). rewrite X. reflexivity.
Qed.

(** ** Diffuse light *)
Definition light_faded (k : R) (b : built) : built :=
  {| b_slit := b_slit b; b_pix_wl := b_pix_wl b; b_pix_width := b_pix_width b; b_spatial := b_spatial b; b_size := b_size b; b_qe := lit k (b_qe b); b_tr := b_tr b; b_delta := b_delta b; b_omega := b_omega b |}.
Lemma slit_faded k b bins slit qe rad : 0 <= k -> convolve_with_slit (light_faded k b) bins slit (lit k qe) rad = match convolve_with_slit b bins slit qe rad with Ok x => Ok (scaled k (fst x), scaled k (snd x)) | Err e => Err e end.
Proof.
  intros K. rewrite <- slit_scale by auto. unfold convolve_with_slit. cbn [light_faded b_pix_wl b_pix_width b_omega b_delta b_spatial]. change (pixel_area (light_faded k b)) with (pixel_area b). destruct (lookup (b_pix_wl b)) as [wl|]; cbn [bind]; auto. destruct (lookup (b_pix_width b)) as [dwl|]; cbn [bind]; auto.
  unfold lit. rewrite resample_scale. replace {| s_wl := s_wl rad; s_data := s_data rad |} with rad by (now destruct rad). destruct (resample wl rad) as [r|]; cbn [bind s_data s_wl]; auto. rewrite interp1d_scaled. destruct (interp1d _ _ _) as [q|]; cbn [bind]; auto.
  rewrite mul_scale_l. replace (scaled (b_omega b * pixel_area b) (scaled k (mul q (map photons_per_joule wl)))) with (scaled k (scaled (b_omega b * pixel_area b) (mul q (map photons_per_joule wl)))) by (unfold scaled; rewrite !map_map; apply map_ext; intros; ring). rewrite times_scale_l, times_scale_r. reflexivity.
Qed.
Lemma resample_lit k wl s : resample wl (lit k s) = match resample wl s with Ok x => Ok (lit k x) | Err e => Err e end.
Proof. unfold lit at 1. rewrite resample_scale. replace {| s_wl := s_wl s; s_data := s_data s |} with s by (now destruct s). destruct (resample wl s) as [x|] eqn:E; auto. Qed.
Lemma fade_swap a k q wl : scaled a (mul (scaled k q) wl) = scaled k (scaled a (mul q wl)).
Proof. rewrite mul_scale_l. unfold scaled. rewrite !map_map. apply map_ext. intros. ring. Qed.
Lemma integrate_scaled b b' k x wl : b_size b' = b_size b -> integrate_light b' (scaled k x) wl = (scaled k (fst (integrate_light b x wl)), scaled k (snd (integrate_light b x wl))).
Proof. intros E. unfold integrate_light. rewrite E, trapz_scale. cbn [fst snd]. unfold scaled. rewrite !map_map. f_equal; apply map_ext; intros; ring. Qed.
Lemma foreground_faded k b bins tr qe f : 0 <= k -> foreground_light (light_faded k b) bins tr (lit k qe) f = match foreground_light b bins tr qe f with Ok x => Ok ((scaled k (fst (fst (fst x))), scaled k (snd (fst (fst x)))), snd (fst x), lit k (snd x)) | Err e => Err e end.
Proof.
  intros K. unfold foreground_light. destruct (attenuate tr f) as [[rad t]|]; cbn [bind]; auto. cbn [light_faded b_slit]. destruct (b_slit b) as [sl|].
  - rewrite slit_faded by auto. destruct (convolve_with_slit b bins sl qe rad) as [[m sg]|]; reflexivity.
  - rewrite resample_lit. destruct (resample _ qe) as [q|]; cbn [bind]; auto. change (pixel_area (light_faded k b)) with (pixel_area b). cbn [light_faded b_omega lit s_wl s_data]. rewrite fade_swap, times_scale_r. destruct (times (s_data rad) _) as [y|]; cbn [bind]; auto.
    rewrite (integrate_scaled b) by reflexivity. reflexivity.
Qed.
Lemma lights_faded k b bins : 0 <= k -> forall fs tr qe out, foregrounds_light (light_faded k b) bins tr (lit k qe) fs (dim k out) = match foregrounds_light b bins tr qe fs out with Ok x => Ok (dim k x) | Err e => Err e end.
Proof.
  intros K. induction fs as [|[n f] fs IH]; intros tr qe out; cbn [foregrounds_light]; auto. rewrite foreground_faded by auto. destruct (foreground_light b bins tr qe f) as [[[[m sg] tr'] qe']|]; cbn [bind fst snd]; auto.
  rewrite <- IH. f_equal. unfold dim. rewrite <- (map_set (fun _ => scaled k)). rewrite <- (map_set (fun _ => scaled k)). reflexivity.
Qed.
Lemma diffuse_faded k b bins fs : 0 <= k -> propagate_diffuse_foreground (light_faded k b) bins (Some fs) = match propagate_diffuse_foreground b bins (Some fs) with Ok x => Ok (dim k x) | Err e => Err e end.
Proof. intros K. unfold propagate_diffuse_foreground. cbn [light_faded b_tr b_qe]. apply (lights_faded k b bins K (rev fs) (b_tr b) (b_qe b) []). Qed.

(** ** The light of the instrument *)
Lemma element_faded k b bins wl qe r : 0 <= k -> element_light (light_faded k b) bins wl (lit k qe) r = match element_light b bins wl qe r with Ok x => Ok ((scaled k (fst (fst x)), scaled k (snd (fst x))), lit k (snd x)) | Err e => Err e end.
Proof.
  intros K. unfold element_light. rewrite resample_lit. destruct (resample wl qe) as [q|]; cbn [bind]; auto. cbn [light_faded b_slit].
  assert (X : (let* x := times (r_data r) (scaled (pixel_area (light_faded k b)) (mul (s_data (lit k q)) (map photons_per_joule (s_wl (lit k q))))) in Ok (integrate_light (light_faded k b) (scaled (solid_angle (light_faded k b) (r_pos r)) x) wl, lit k q)) =
    match (let* x := times (r_data r) (scaled (pixel_area b) (mul (s_data q) (map photons_per_joule (s_wl q)))) in Ok (integrate_light b (scaled (solid_angle b (r_pos r)) x) wl, q)) with Ok x => Ok ((scaled k (fst (fst x)), scaled k (snd (fst x))), lit k (snd x)) | Err e => Err e end).
  { change (pixel_area (light_faded k b)) with (pixel_area b). change (solid_angle (light_faded k b)) with (solid_angle b). cbn [lit s_wl s_data]. rewrite fade_swap, times_scale_r. destruct (times (r_data r) _) as [y|]; cbn [bind]; auto.
    replace (scaled (solid_angle b (r_pos r)) (scaled k y)) with (scaled k (scaled (solid_angle b (r_pos r)) y)) by (unfold scaled; rewrite !map_map; apply map_ext; intros; ring). rewrite (integrate_scaled b) by reflexivity. reflexivity. }
  destruct (r_slit r); [|exact X]. destruct (b_slit b) as [sl|]; [|exact X]. rewrite slit_faded by auto. destruct (convolve_with_slit b bins sl q _) as [[m sg]|]; reflexivity.
Qed.
Lemma plus_scaled k : forall a c, plus (scaled k a) (scaled k c) = match plus a c with Ok x => Ok (scaled k x) | Err e => Err e end.
Proof.
  intros a c. unfold plus. rewrite !len_scaled. destruct (Nat.eqb _ _); auto. f_equal. revert c. induction a as [|x a IH]; intros [|y c]; cbn; auto. f_equal; [ring|apply IH].
Qed.
Lemma sum_faded k b bins wl : 0 <= k -> forall rads qe out out', total_max out' = scaled k (total_max out) -> total_signal out' = scaled k (total_signal out) ->
  match sum_light b bins wl qe rads out with
  | Ok em => exists em', sum_light (light_faded k b) bins wl (lit k qe) rads out' = Ok em' /\ total_max em' = scaled k (total_max em) /\ total_signal em' = scaled k (total_signal em)
  | Err e => sum_light (light_faded k b) bins wl (lit k qe) rads out' = Err e
  end.
Proof.
  intros K. induction rads as [|[n r] rads IH]; intros qe out out' M S; cbn [sum_light]. { exists out'. auto. }
  rewrite element_faded by auto. destruct (element_light b bins wl qe r) as [[[lm ls] q]|]; cbn [bind fst snd]; auto. rewrite S, plus_scaled. destruct (plus (total_signal out) ls) as [ts|]; cbn [bind]; auto. rewrite M, plus_scaled. destruct (plus (total_max out) lm) as [tm|]; cbn [bind]; auto.
  apply IH; reflexivity.
Qed.
Lemma signal_faded k b bins wl rads em : 0 <= k -> compute_signal b bins wl rads = Ok em -> exists em', compute_signal (light_faded k b) bins wl rads = Ok em' /\ total_max em' = scaled k (total_max em) /\ total_signal em' = scaled k (total_signal em).
Proof.
  intros K E. unfold compute_signal in *. cbn [light_faded b_qe]. pose proof (sum_faded k b bins wl K rads (b_qe b) {| by_element := []; total_max := map (fun _ => 0) bins; total_signal := map (fun _ => 0) bins |} {| by_element := []; total_max := map (fun _ => 0) bins; total_signal := map (fun _ => 0) bins |}) as X.
  rewrite E in X. apply X; cbn [total_max total_signal]; unfold scaled; rewrite map_map; apply map_ext; intros; ring.
Qed.

(** ** Building *)
Definition faded_column (k : R) (qe : list (option R)) : list (option R) := map (option_map (fun v => v * k)) qe.
Lemma get_qe_faded k name q q' lo hi n bins : less_efficient k name q q' -> get_qe name q' lo hi n bins = match get_qe name q lo hi n bins with Ok (c, s) => Ok (faded_column k c, lit k s) | Err e => Err e end.
Proof.
  intros LE. unfold get_qe. destruct q as [t|v]; cbn [less_efficient] in LE.
  - destruct LE as (t' & y & -> & N1 & N2 & G & G' & O). unfold dmem. rewrite (O "wavelength"%string), (O "Wavelength"%string) by auto. destruct (match sget "wavelength" t with Some _ => true | None => false end).
    + cbn [bind]. unfold col. rewrite (O "wavelength"%string) by auto. destruct (sget "wavelength" t) as [x|]; cbn [bind]; auto. rewrite G, G'. cbn [bind s_wl s_data]. change (map (fun a => a * k) y) with (scaled k y). rewrite interp1d_scaled. destruct (interp1d x y _) as [z|]; cbn [bind]; auto. rewrite bin_signal_scaled. reflexivity.
    + destruct (match sget "Wavelength" t with Some _ => true | None => false end); cbn [bind]; auto. unfold col. rewrite (O "Wavelength"%string) by auto. destruct (sget "Wavelength" t) as [x|]; cbn [bind]; auto. rewrite G, G'. cbn [bind s_wl s_data]. change (map (fun a => a * k) y) with (scaled k y). rewrite interp1d_scaled. destruct (interp1d x y _) as [z|]; cbn [bind]; auto. rewrite bin_signal_scaled. reflexivity.
  - subst. cbv zeta. cbn [bind s_wl s_data]. set (g := logspace lo hi n). replace (map (fun _ : R => v * k * 1) g) with (scaled k (map (fun _ => v * 1) g)) by (unfold scaled; rewrite map_map; apply map_ext; intros; ring). rewrite interp1d_scaled. destruct (interp1d _ _ _) as [z|]; cbn [bind]; auto. rewrite bin_signal_scaled. reflexivity.
Qed.
Lemma qe_of_faded k w name d q bins : less_efficient k name (d_qe d) q -> qe_of w name (with_qe d q) bins = match qe_of w name d bins with Ok (c, s) => Ok (faded_column k c, lit k s) | Err e => Err e end.
Proof.
  intros LE. unfold qe_of. cbn [with_qe d_qe d_from d_to]. destruct (d_qe d) as [t|v] eqn:DQ.
  - pose proof LE as LE'. cbn [less_efficient] in LE. destruct LE as (t' & y & -> & _). now apply get_qe_faded.
  - pose proof LE as LE'. cbn [less_efficient] in LE. subst q. destruct (in_microns (d_from d)) as [a|]; cbn [bind]; auto. destruct (in_microns (d_to d)) as [b|]; cbn [bind]; auto. now apply get_qe_faded.
Qed.
(** the parts, with another quantum efficiency *)
Definition faded_parts (k : R) (name : string) (q q' : parts) : Prop :=
  q_bins q' = q_bins q /\ q_qe q' = lit k (q_qe q) /\ q_kind q' = q_kind q /\ q_pixels q' = q_pixels q /\ q_spatial q' = q_spatial q /\ q_size q' = q_size q /\
  exists qe, q_columns q = builder_columns name (q_bins q) qe (q_size q) [] /\ q_columns q' = builder_columns name (q_bins q) (faded_column k qe) (q_size q) [].
Lemma photometer_parts k w fuel name d q z : less_efficient k name (d_qe d) q -> photometer_builder w fuel name d [] = Some (Ok z) -> exists z', photometer_builder w fuel name (with_qe d q) [] = Some (Ok z') /\ faded_parts k name z z'.
Proof.
  intros LE E. unfold photometer_builder in *. rewrite (qe_of_faded k w name d q _ LE). cbn [with_qe d_min d_max d_aperture]. dthen E qe Hq. injection Hq as Hq. rewrite Hq. destruct qe as [qc qs]. cbn [andthen].
  change (psf_at w (with_qe d q)) with (psf_at w d). dthen E psf Hp. injection Hp as Hp. rewrite Hp. cbn [andthen]. change (window_of w fuel (with_qe d q)) with (window_of w fuel d). dthen E size Hs. rewrite Hs. cbn [andthen]. injection E as <-. eexists. split; [reflexivity|].
  unfold faded_parts. cbn [q_bins q_qe q_kind q_pixels q_spatial q_size q_columns fst snd]. do 6 (split; [reflexivity|]). exists qc. split; reflexivity.
Qed.
Lemma spectrometer_parts k w fuel name d q z : less_efficient k name (d_qe d) q -> spectrometer_builder w fuel name d [] = Some (Ok z) -> exists z', spectrometer_builder w fuel name (with_qe d q) [] = Some (Ok z') /\ faded_parts k name z z'.
Proof.
  intros LE E. unfold spectrometer_builder in *. cbn [with_qe d_min d_max d_solution M_Build.d_delta d_targetR d_fy d_windows]. destruct (d_solution d) as [s|]; [|discriminate]. destruct (negb _); [discriminate|]. destruct (Nat.ltb _ _); [discriminate|]. destruct (Req_EM_T _ _); [discriminate|].
  dthen E eb He. rewrite He. cbn [andthen]. rewrite (qe_of_faded k w name d q _ LE). dthen E qe Hq. injection Hq as Hq. rewrite Hq. destruct qe as [qc qs]. cbn [andthen]. change (gain_table w (with_qe d q)) with (gain_table w d). dthen E g Hg. injection Hg as Hg. rewrite Hg. cbn [andthen]. dthen E fy Hf. injection Hf as Hf. rewrite Hf. cbn [andthen]. dthen E size Hs. injection Hs as Hs. rewrite Hs. cbn [andthen]. injection E as <-. eexists. split; [reflexivity|].
  unfold faded_parts. cbn [q_bins q_qe q_kind q_pixels q_spatial q_size q_columns fst snd]. do 6 (split; [reflexivity|]). exists qc. split; reflexivity.
Qed.
(** a channel, with another quantum efficiency *)
Definition paler (k : R) (c c' : chan) : Prop :=
  h_star c' = faded k (h_star c) /\ h_kind c' = h_kind c /\ h_light c' = light_faded k (h_light c) /\ h_noise c' = h_noise c /\ h_common c' = h_common c /\
  names (cols (h_table c')) = names (cols (h_table c)) /\
  (exists t, sget "QE" (cols (h_table c)) = Some (map cell_of t) /\ sget "QE" (cols (h_table c')) = Some (map cell_of (faded_column k t))) /\
  (forall m, instrument_column m -> exists v, sget m (cols (h_table c)) = Some (map num v) /\ sget m (cols (h_table c')) = Some (map num (scaled k v))) /\
  forall m, m <> "QE"%string -> ~ instrument_column m -> sget m (cols (h_table c')) = sget m (cols (h_table c)).
Lemma path_faded k w p p' d q z z' name c : 0 <= k -> p_optics p' = p_optics p -> p_custom p' = p_custom p -> faded_parts k name z z' -> build_optical_path w p d z = Ok c -> exists c', build_optical_path w p' (with_qe d q) z' = Ok c' /\ paler k c c'.
Proof.
  intros K PO PC (F1 & F2 & F3 & F4 & F5 & F6 & qe & Q1 & Q2) E. unfold build_optical_path in *. change (optical_grid w (with_qe d q)) with (optical_grid w d). destruct (optical_grid w d) as [wl|]; cbn [bind] in *; [|discriminate].
  assert (OP : optical_path wl p' (with_qe d q) = optical_path wl p d) by (unfold optical_path; rewrite PO; reflexivity). rewrite OP, PO. destruct (optical_path wl p d) as [els|]; cbn [bind] in *; [|discriminate]. destruct (col _ _) as [total|]; cbn [bind] in *; [|discriminate].
  cbn [with_qe d_min d_max d_fx d_fy M_Build.d_delta d_detector]. rewrite F1, F2, F3, F4, F5, F6. destruct (get_transmission_column _ _ _ _ _) as [[tc tr]|]; cbn [bind] in *; [|discriminate]. destruct (chain planck wl els) as [[rads slit]|]; cbn [bind] in *; [|discriminate]. destruct (lookup (d_fx d)) as [fx|]; cbn [bind] in *; [|discriminate].
  set (b0 := {| b_slit := slit; b_pix_wl := _; b_pix_width := _; b_spatial := _; b_size := _; b_qe := q_qe z; b_tr := tr; b_delta := _; b_omega := _ |}) in *.
  set (b1 := {| b_slit := slit; b_pix_wl := _; b_pix_width := _; b_spatial := _; b_size := _; b_qe := lit k (q_qe z); b_tr := tr; b_delta := _; b_omega := _ |}). change b1 with (light_faded k b0).
  destruct (compute_signal b0 _ wl rads) as [em|] eqn:CS; cbn [bind] in *; [|discriminate]. destruct (signal_faded k _ _ _ _ _ K CS) as (em' & -> & TM & TS). cbn [bind]. eexists. split; [reflexivity|]. injection E as <-. unfold paler. cbn [h_star h_kind h_light h_noise h_common h_table cols].
  split; [reflexivity|]. split; [reflexivity|]. split; [reflexivity|]. split; [reflexivity|]. split; [exact PC|]. rewrite Q1, Q2, TM, TS. split; [reflexivity|]. split; [exists qe; split; reflexivity|]. split.
  - intros m [->| ->]; eexists; split; reflexivity.
  - intros m N NI. assert (m <> "instrument_signal"%string) by (intros ->; apply NI; now left). assert (m <> "instrument_MaxSignal_inPixel"%string) by (intros ->; apply NI; now right). cbn. repeat match goal with |- context [String.eqb m ?a] => destruct (String.eqb_spec m a); [try reflexivity; congruence|] end. reflexivity.
Qed.
Lemma star_faded k c c' col sed sky : paler k c c' -> propagate_star c' col sed sky = propagate_star (widen k c) col sed sky.
Proof.
  intros (S & HK & _). unfold propagate_star. cbn [widen h_star h_kind]. rewrite S, HK. change (with_sky (faded k (h_star c)) col) with (faded k (with_sky (h_star c) col)). change (with_sky (wide k (h_star c)) col) with (wide k (with_sky (h_star c) col)).
  destruct (h_kind c); [apply photometer_faded|apply spectrometer_faded].
Qed.
