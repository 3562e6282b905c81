(** A telescope with a photometer and a spectrometer behind a slit: it is built, and observes.  The
    hypotheses of C90-C97 are met. *)
From Coq Require Import Reals Lra Psatz Lia Sorting.Sorted Sorting.Permutation.
From Verif Require Import Base Dict PyStr XR M_Signal M_Optics M_Light M_Bins M_Psf M_Omega M_Star M_Source M_Foreground S_Signal S_Optics S_Light S_Bins S_Star S_Success S_Foreground L_Signal L_Optics L_Light L_Bins P_Optics P_Bins P_Windows P_Light P_Success P_Omega P_Source P_Foreground.
From Verif Require M_Noise S_Noise L_Noise.
From Verif Require Import M_Table L_Table M_Observe S_Observe S_Works S_Complete P_Observe P_Outcome P_Works P_Complete P_Instance M_Build S_Build S_Ready L_Build L_Ready P_Build P_Ready P_Mission S_Psf S_Parts P_Parts P_Emission.
Open Scope list_scope.
Open Scope R_scope.

(** every point spread function is one pixel; all gains are 1 *)
Definition sharp : outer :=
  {| u_pixel_based := fun _ _ => Ok [[1]]; u_paos := fun _ _ _ => Ok ([[1]], [[1]]); u_binned := fun _ _ _ _ _ => Ok ([[1]], [[1]]);
     u_encircled := fun _ _ _ _ _ => 1; u_cubic := fun _ _ _ => Ok 1; u_R := 2 |}.
Definition mirror : descr := [("value", M_Optics.Txt "M1"); ("type", M_Optics.Txt "surface"); ("reflectivity", M_Optics.Num 0.9); ("emissivity", M_Optics.Num 0.1); ("temperature", M_Optics.Num 80)]%string.
Definition a_slit : descr := [("value", M_Optics.Txt "slit"); ("type", M_Optics.Txt "slit"); ("width", M_Optics.Num 25)]%string.
Definition described_as (name class : string) (from to : wavelength) (own : optics) : description :=
  {| d_name := Some name; d_class := Some class; d_min := 1; d_max := 2; d_from := from; d_to := to; d_delta := 10; d_qe := QeValue 0.5;
     d_fx := Some 20; d_fy := Some 20; d_psf := None; d_aperture := Some {| a_radius := Some 2; a_ene := None; a_correction := None |};
     d_solution := Some {| sol_wl := [2; 1]; sol_x := [0; 100] |}; d_targetR := Some Native; d_wfe := None;
     d_windows := {| k_radius := None; k_scale := None; k_spatial := None; k_spectral := None |}; d_optics := Some own; d_detector := detector_of name |}.
Definition um x := P_Foreground.micron x.
Definition phot : description := described_as "phot" "Photometer" (um 1) (um 2) NoElement.
Definition spec : description := described_as "spec" "spectrometer" (um 1) (um 2) (M_Optics.One a_slit).
Definition telescope : payload :=
  {| p_optics := Some {| o_elements := M_Optics.One mirror; o_force := Some true; o_area := 3 |}; p_custom := None; p_channel := Some (Ordered [("phot"%string, phot); ("spec"%string, spec)]) |}.

Lemma mirror_sensible : sensible_element mirror.
Proof.
  split; [|split; [|split]].
  - exists "M1"%string, "surface"%string. repeat (split; [reflexivity|]). discriminate.
  - intros f [= <-]. exists 80. split; [reflexivity|lra].
  - intros k f [->|[->| ->]]; discriminate.
  - cbn. split; [now left|]. intros k f [->|[->| ->]]; cbn; try discriminate; intros [= <-]; eexists; (split; [reflexivity|lra]).
Qed.
Lemma slit_sensible : sensible_element a_slit.
Proof.
  split; [|split; [|split]].
  - exists "slit"%string, "slit"%string. repeat (split; [reflexivity|]). intros _. exists 25. reflexivity.
  - discriminate.
  - intros k f [->|[->| ->]]; discriminate.
  - cbn. split; [now left|]. intros k f [->|[->| ->]]; discriminate.
Qed.
Lemma common_complete name class own : sensible_optics own -> complete_common sharp telescope name (described_as name class (um 1) (um 2) own).
Proof.
  intros SO. unfold complete_common, described_as; cbn [d_from d_to d_delta d_min d_max d_optics d_fx d_fy d_qe d_detector].
  split; [reflexivity|]. split; [reflexivity|]. split; [cbn; lra|]. split; [cbn; lia|]. split; [lra|]. split; [lra|]. split; [|split; [|split; [|split]]].
  - do 3 eexists. repeat (split; [reflexivity|]). split; [cbn; lra|]. split; auto. cbn. intros e ->. apply mirror_sensible.
  - exists 20, 20. repeat (split; [reflexivity|]). lra.
  - cbn. lra.
  - reflexivity.
  - exists the_numbers. split; [repeat split; auto|]. unfold S_Noise.physical, the_numbers. cbn. lra.
Qed.
Example phot_complete fuel : complete_photometer sharp fuel telescope "phot" phot.
Proof.
  split; [apply common_complete; now intros e|]. split; [exists "Photometer"%string; split; reflexivity|]. split.
  - intros v (o & e & [[= ->]|[= ->]] & E & (T & _)); cbn in E; [subst e; discriminate|auto].
  - cbv zeta. exists [[1]], (Some [[1]]), {| a_radius := Some 2; a_ene := None; a_correction := None |}. split; [reflexivity|]. split; [discriminate|]. split; [intros x [<-|[]]; lra|]. split; [reflexivity|].
    split; [discriminate|]. split; [discriminate|]. left. now exists 2.
Qed.

Lemma the_pixels : pixels {| sol_wl := [2; 1]; sol_x := [0; 100] |} 1 2 10 = [90; 80; 70; 60; 50; 40; 30; 20; 10; 0].
Proof.
  assert (S1 : sort_src (combine [2; 1] [0; 100]) = [(1, 100); (2, 0)]).
  { cbn. destruct (Rltb 1 2) eqn:E; [reflexivity|]. exfalso. assert (Rltb 1 2 = true) by (apply Rltb_true; lra). congruence. }
  unfold pixels, x_of, interpolator. cbn [sol_wl sol_x]. rewrite S1. cbn [extrapolate]. unfold line. cbn [fst snd].
  replace ((0 - 100) / (2 - 1) * (1 - 1) + 100) with 100 by field. replace ((0 - 100) / (2 - 1) * (2 - 1) + 100) with 0 by field.
  replace (Rltb 0 100) with true by (symmetry; apply Rltb_true; lra). unfold arange. replace ((100 - 0) / 10) with (IZR 10) by field. rewrite Rceil_IZR.
  change (Z.to_nat 10) with 10%nat. cbn [seq map rev app INR]. repeat (f_equal; try lra).
Qed.
Lemma the_wavelengths : pixel_wl {| sol_wl := [2; 1]; sol_x := [0; 100] |} [90; 80; 70; 60; 50; 40; 30; 20; 10; 0] = [1.1; 1.2; 1.3; 1.4; 1.5; 1.6; 1.7; 1.8; 1.9; 2].
Proof.
  assert (S1 : sort_src (combine [0; 100] [2; 1]) = [(0, 2); (100, 1)]).
  { cbn. destruct (Rltb 100 0) eqn:E; [apply Rltb_true in E; lra|reflexivity]. }
  unfold pixel_wl, wl_of, interpolator. cbn [sol_wl sol_x]. rewrite S1. cbn [extrapolate map]. unfold line. cbn [fst snd]. repeat (f_equal; try lra).
Qed.
Example spec_complete fuel : complete_spectrometer sharp fuel telescope "spec" spec.
Proof.
  assert (DI : dispersion {| sol_wl := [2; 1]; sol_x := [0; 100] |}).
  { split; [reflexivity|]. split; [cbn; lia|]. left. split; [repeat constructor; lra|]. right. repeat constructor; lra. }
  destruct (C63_pixels_cover_the_band _ 1 2 10 DI ltac:(lra) ltac:(lra)) as (_ & _ & _ & _ & _ & _ & PW). rewrite the_pixels in PW.
  set (pd := pixel_width {| sol_wl := [2; 1]; sol_x := [0; 100] |} 10 [90; 80; 70; 60; 50; 40; 30; 20; 10; 0]) in *.
  destruct (C62_one_bin_per_pixel (Some Native) 1 2 [1.1; 1.2; 1.3; 1.4; 1.5; 1.6; 1.7; 1.8; 1.9; 2] pd fuel) as (bins & TB & PE & _ & PB); auto; [discriminate|].
  assert (BI : forall b, In b bins -> In (centre b) [1.1; 1.2; 1.3; 1.4; 1.5; 1.6; 1.7; 1.8; 1.9; 2] /\ left_edge b < centre b < right_edge b).
  { intros b I. assert (J : In (centre b, width b) (map (fun b => (centre b, width b)) bins)) by (apply in_map_iff; eauto). apply (Permutation_in _ PE) in J. split; [eapply in_combine_l, J|].
    apply in_combine_r, PW in J. destruct (PB b I) as [L1 L2]. lra. }
  split; [apply common_complete; intros e ->; apply slit_sensible|]. split; [exists "spectrometer"%string; split; reflexivity|]. split; [intros v [[=]|[[=]|[=]]]|]. split; [discriminate|].
  exists {| sol_wl := [2; 1]; sol_x := [0; 100] |}, (edges_of bins), bins. cbn [spec described_as d_solution d_min d_max d_delta d_targetR d_from d_to]. rewrite the_pixels, the_wavelengths. fold pd.
  destruct (gain_table sharp spec [1.1; 1.2; 1.3; 1.4; 1.5; 1.6; 1.7; 1.8; 1.9; 2]) as [[wls g]|] eqn:G; [|discriminate]. exists wls, g.
  split; [reflexivity|]. split; [exact DI|]. cbv zeta. split; [repeat constructor; lra|]. split; [cbn; lia|]. split; [exact TB|].
  split; [intros ->; apply Permutation_nil in PE; discriminate|]. split.
  { intros b I. destruct (BI b I) as [J K]. split; [cbn in J; repeat (destruct J as [<-|J]; [lra|]); destruct J|]. exists (centre b). auto. }
  split; [reflexivity|]. split; [intros; exists 1; reflexivity|]. split; [intros x y [= <-]; lra|].
  intros v (o & e & OE & E & (T & W)). assert (v = 25) as ->. { destruct OE as [[= ->]|[= ->]]; cbn in E; subst e; [discriminate|]. cbn in W. injection W. auto. }
  split; [split|].
  - exists 2%nat. split; [unfold pixels_in; cbn; lra|cbn; lia].
  - intros x I. apply in_map_iff in I as (b & <- & I). destruct (BI b I) as [J K]. exists (centre b). split; auto. cbn. lra.
  - cbn [value um P_Foreground.micron sharp u_R]. rewrite ex_logspace. exists 1.1, 2, 1, 2. split; [split; [now left|members]|]. split; [split; [cbn; auto 12|members]|]. cbn. repeat (split; [auto; lra|]). lra.
Qed.
Lemma telescope_complete fuel name d : In (name, d) [("phot"%string, phot); ("spec"%string, spec)] -> complete_photometer sharp fuel telescope name d \/ complete_spectrometer sharp fuel telescope name d.
Proof. intros [[= <- <-]|[[= <- <-]|[]]]; [left; apply phot_complete|right; apply spec_complete]. Qed.
Lemma telescope_named : named [("phot"%string, phot); ("spec"%string, spec)].
Proof. split; [repeat constructor; cbn; intuition discriminate|]. intros name d [[= <- <-]|[[= <- <-]|[]]]; reflexivity. Qed.
Lemma sky_known h : Forall (fun sx => sx = (run, vega)) h -> Forall (fun sx => no_instrument_in_the_sky (fst sx) (snd sx)) h.
Proof.
  apply Forall_impl. intros sx -> g fs G F I. cbn [fst snd] in G. destruct (run_foregrounds vega g eq_refl G) as (fs' & F' & E). assert (fs' = fs) as -> by congruence. rewrite E in I. cbn in I. intuition discriminate.
Qed.
(** C96: it can be built. *)
Example a_telescope fuel : exists a b, build_channels sharp fuel telescope = Some (Ok [("phot"%string, a); ("spec"%string, b)]) /\ instruments channel_columns [("phot"%string, a); ("spec"%string, b)].
Proof.
  destruct (C96_complete_payload_builds sharp fuel telescope _ eq_refl ltac:(discriminate) telescope_named) as (chs & B & I & F).
  - intros name d r [[= <- <-]|[[= <- <-]|[]]]; discriminate.
  - apply telescope_complete.
  - inversion F as [|? [n1 a] ? ? (E1 & _) F1]; subst. inversion F1 as [|? [n2 b] ? ? (E2 & _) F2]; subst. inversion F2; subst. cbn in E1, E2. subst. eauto.
Qed.
Lemma telescope_in_range name d wl : In (name, d) [("phot"%string, phot); ("spec"%string, spec)] -> geometric_grid (value (y_min run)) (value (y_max run)) (y_R run) wl -> in_range sharp name d wl.
Proof.
  intros I G. apply grid_is in G. subst wl. assert (O2 : overlaps [1; 2] {| s_wl := [1; 2]; s_data := [1; 2] |}) by now apply overlap_self.
    destruct I as [[= <- <-]|[[= <- <-]|[]]]; (split; [cbn [phot spec described_as d_from d_to um P_Foreground.micron value sharp u_R]; rewrite ex_logspace; exact O2|split; [exact I|]]); intros s k [= <-] [= <-] E; [discriminate|].
    cbn [spec described_as d_min d_max d_delta]. rewrite the_pixels, the_wavelengths. exists 1.1, 2, 1, 2. split; [split; [now left|members]|]. split; [split; [cbn; auto 12|members]|]. cbn. repeat (split; [auto; lra|]). lra.
Qed.
(** C97: and it observes, for the first and for the tenth time. *)
Example first_light fuel h : Forall (fun sx => sx = (run, vega)) h -> exists chs y, build_channels sharp fuel telescope = Some (Ok chs) /\ snd (observe_target run (after chs h) vega) = Ok y.
Proof.
  intros H. apply (C97_build_then_observe sharp fuel telescope _ run vega sky_over_us (SourceName "Planck") h eq_refl); try reflexivity; try discriminate; try apply vega_known.
  - apply telescope_named.
  - intros name d r [[= <- <-]|[[= <- <-]|[]]]; discriminate.
  - apply telescope_complete.
  - intros name d [[= <- <-]|[[= <- <-]|[]]]; exists 3; (split; [reflexivity|lra]).
  - apply telescope_in_range.
  - cbn. lra.
  - apply run_sensible.
  - intros X. now destruct X.
  - now apply sky_known.
  - apply (Forall_inv (sky_known [(run, vega)] (Forall_cons _ eq_refl (Forall_nil _)))).
Qed.
(** C93: the slit of the spectrometer is in effect; there is none in front of the photometer. *)
Example slits fuel a b : build_channels sharp fuel telescope = Some (Ok [("phot"%string, a); ("spec"%string, b)]) -> b_slit (h_light a) = None /\ b_slit (h_light b) = Some 25.
Proof.
  intros E. assert (ND : NoDup (map fst [("phot"%string, phot); ("spec"%string, spec)])) by apply telescope_named. split.
  - destruct (C93_path _ _ telescope _ _ _ _ eq_refl ND E (or_introl eq_refl)) as (d & els & [= <-] & P). destruct (C93_which_slit _ _ telescope _ _ _ _ _ _ eq_refl ND E (or_introl eq_refl) eq_refl P) as [W _]. apply W.
    intros l1 s l2 SQ IS. destruct P as (o & own & c1 & c2 & [= <-] & [= <-] & P1 & P2 & ->). cbn in P1, P2. injection P1 as <-. injection P2 as <-. cbn in SQ.
    destruct l1 as [|e1 [|e2 [|e3 l1]]]; inversion SQ; subst; discriminate IS.
  - destruct (C93_path _ _ telescope _ _ _ _ eq_refl ND E (or_intror (or_introl eq_refl))) as (d & els & [= <-] & P). destruct (C93_which_slit _ _ telescope _ _ _ _ _ _ eq_refl ND E (or_intror (or_introl eq_refl)) eq_refl P) as [_ W].
    destruct P as (o & own & c1 & c2 & [= <-] & [= <-] & P1 & P2 & ->). cbn in P1, P2. injection P1 as <-. injection P2 as <-. cbn in W.
    rewrite (W [_] _ [] eq_refl); [reflexivity|reflexivity|now intros X; inversion X|]. constructor. discriminate.
Qed.
(** C94: the detector works from 1000 to 2000 nm; the photometer behind cold optics sees nothing. *)
Definition nm x := {| value := x; in_um := Some (1 / 1000) |}.
Definition in_nm : payload :=
  {| p_optics := Some {| o_elements := NoElement; o_force := Some false; o_area := 3 |}; p_custom := None;
     p_channel := Some (Ordered [("phot"%string, described_as "phot" "photometer" (nm 1000) (nm 2000) NoElement)]) |}.
Example blind fuel : exists c, build_channels sharp fuel in_nm = Some (Ok [("phot"%string, c)]) /\ sget "TR" (cols (h_table c)) = Some [Num (Fin 0)].
Proof.
  eexists. split; [reflexivity|]. set (c := {| h_star := _ |}).
  change ([Num (Fin 0)]) with (map (fun _ : bin => Num (Fin 0)) (c_bins (h_star c))).
  eapply (C94_other_units_refuted sharp fuel in_nm _ [("phot"%string, c)] "phot" c (described_as "phot" "photometer" (nm 1000) (nm 2000) NoElement) false _ _ eq_refl); try reflexivity.
  - repeat constructor; cbn; auto.
  - now left.
  - cbn [described_as d_from d_to nm value d_min d_max y_min y_max run um P_Foreground.micron]. lra.
  - instantiate (1 := right_edge (bin_at (0.5 * (1 + 2)) (2 - 1))). instantiate (1 := left_edge (bin_at (0.5 * (1 + 2)) (2 - 1))). apply tile_one; [cbn; lra|constructor].
  - intros b [<-|[]]. split; [split; cbn; lra|]. left. cbn. lra.
Qed.
(** C98, C99: the photometer collects light on 3 m2, through an aperture of 2 x 2 F lambda; the mirror alone is warm. *)
Example phot_parts fuel a b : build_channels sharp fuel telescope = Some (Ok [("phot"%string, a); ("spec"%string, b)]) ->
  c_area (h_star a) = 3 /\ b_size (h_light a) = [2 * 2 * (20 * 1.5 / 10) * (20 * 1.5 / 10)] /\
  exists rad, length rad = 2%nat /\ at_ 0 rad = 0.1 * planck 1 80 * (1 * 1) /\
  exists pixel, sget "instrument_signal" (cols (h_table a)) = Some [Num (Fin (pixel * (2 * 2 * (20 * 1.5 / 10) * (20 * 1.5 / 10)) + 0))] /\
  exists qe, pixel = trapezia [1; 2] (counts_per_um_sr 10 rad qe [1; 2]) * omega_pix 20 (Some 20).
Proof.
  intros E. assert (ND : NoDup (map fst [("phot"%string, phot); ("spec"%string, spec)])) by apply telescope_named. pose proof (or_introl eq_refl : In ("phot"%string, a) [("phot"%string, a); ("spec"%string, b)]) as I.
  destruct (C98_from_the_description _ _ telescope _ _ _ _ eq_refl ND E I) as (d & o & fx & [= <-] & [= <-] & [= <-] & _ & _ & HA & _ & _ & _ & _ & HD & HO & _). split; [exact HA|].
  destruct (C92_class_decides _ _ telescope _ _ _ _ eq_refl ND E I) as (d & s & [= <-] & [= <-] & K). destruct (h_kind a) as [ap prf|] eqn:HK; [|discriminate].
  destruct (C98_photometer _ _ telescope _ _ _ _ _ _ eq_refl ND E I HK) as (d & im & k & size & [= <-] & _ & _ & _ & (a0 & [= <-] & _ & W) & SZ & _).
  assert (SI : size = 2 * 2 * (20 * 1.5 / 10) * (20 * 1.5 / 10)).
  { destruct W as (fx & fy & [= <-] & [= <-] & W & _); [intros (p' & X & _); discriminate|]. rewrite (W 2 eq_refl). cbn. lra. }
  rewrite SI in SZ. split; [exact SZ|].
  destruct (C93_path _ _ telescope _ _ _ _ eq_refl ND E I) as (d & els & [= <-] & P). pose proof P as (o & own & c1 & c2 & [= <-] & [= <-] & P1 & P2 & EE). cbn in P1, P2. injection P1 as <-. injection P2 as <-. cbn in EE.
  destruct (C90_bins _ _ telescope _ _ _ _ eq_refl ND E I) as (d & [= <-] & KB). rewrite HK in KB. destruct KB as (_ & bn & BN & _).
  destruct (C94_range_unit_ignored _ _ telescope _ _ _ _ eq_refl ND E I) as (d & [= <-] & GG & _). cbn in GG. apply grid_is in GG.
  destruct (C99_emission _ _ telescope _ _ _ _ _ _ eq_refl ND E I eq_refl P) as (lights & LL & S1 & _ & F).
  - cbn. lra.
  - cbn. lia.
  - rewrite EE. repeat constructor; cbn; intuition discriminate.
  - rewrite BN. discriminate.
  - rewrite GG in *. subst els. cbn [sequence map snd filter warm e_temp] in LL, F. inversion F as [|e lt ? ? H F' X1 X2]; subst. inversion F'; subst. destruct (H [] _ eq_refl) as (T & rad & qe & [= <-] & (LR & AR) & _ & DL & _).
    exists rad. split; [exact LR|]. split; [rewrite (AR 0%nat) by (cbn; lia); cbn; lra|].
    destruct DL as [_ D2]; [intros X; inversion X as [? ? X1|? ? X1]; subst; [discriminate|inversion X1]|]. cbv zeta in D2. rewrite HD, HO, SZ in D2. eexists. rewrite S1, BN. cbn [length seq map]. rewrite D2. cbn [map at_ nth total fold_right]. split; [reflexivity|]. eexists. reflexivity.
Qed.
