(** Properties of what a built channel is made of. *)
From Coq Require Import Reals Lra Psatz.
From Verif Require Import Base Dict PyStr XR M_Signal M_Optics M_Light M_Bins M_Psf M_Omega M_Star M_Source S_Signal S_Optics S_Light S_Bins S_Psf S_Foreground L_Signal L_Optics L_Light L_Bins L_Psf P_Optics P_Bins P_Windows P_Light P_Psf P_Source M_Table L_Table M_Observe S_Observe M_Build S_Build L_Build P_Build S_Parts.
From Verif Require M_Noise.
Open Scope list_scope.
Open Scope R_scope.

(** ** C98 *)
Lemma the_description w fuel p l chs name c : p_channel p = Some (Ordered l) -> NoDup (map fst l) -> build_channels w fuel p = Some (Ok chs) -> In (name, c) chs ->
  exists d k q, sget name l = Some d /\ class_named (py_lower (match d_class d with Some s => s | None => EmptyString end)) = Some k /\
  match k with Photometer => photometer_builder w fuel name d [] | Spectrometer => spectrometer_builder w fuel name d [] end = Some (Ok q) /\ build_optical_path w p d q = Ok c.
Proof.
  intros C ND E I. destruct (built_from _ _ _ _ _ _ _ C E I) as (d & ID & B). apply built_inv in B as (k & q & K & _ & B & O). exists d, k, q. split; [apply NoDup_In_dget; auto; apply String_eqb_spec|auto].
Qed.
Theorem C98_from_the_description : forall w fuel p l chs name c, p_channel p = Some (Ordered l) -> NoDup (map fst l) -> build_channels w fuel p = Some (Ok chs) -> In (name, c) chs ->
  exists d o fx, sget name l = Some d /\ p_optics p = Some o /\ d_fx d = Some fx /\
  h_noise c = d_detector d /\ h_common c = p_custom p /\
  c_area (h_star c) = o_area o /\ c_force (h_star c) = o_force o /\ c_min (h_star c) = d_min d /\ c_max (h_star c) = d_max d /\ c_sky (h_star c) = None /\
  b_delta (h_light c) = d_delta d /\ b_omega (h_light c) = omega_pix fx (d_fy d) /\ b_qe (h_light c) = c_qe (h_star c) /\ b_tr (h_light c) = c_tr (h_star c).
Proof.
  intros w fuel p l chs name c C ND E I. destruct (the_description _ _ _ _ _ _ _ C ND E I) as (d & k & q & SG & _ & B & O).
  destruct (path_inv _ _ _ _ _ O) as (wl & els & total & trc & rads & slit & em & fx & _ & OP & _ & _ & _ & FX & HL & _ & HS & _ & HN & HC & _).
  unfold optical_path in OP. destruct (p_optics p) as [o|] eqn:PO; [|discriminate]. exists d, o, fx. rewrite HL, HS. cbn. repeat split; auto.
Qed.
Print Assumptions C98_from_the_description.

Lemma psf_is w d wl im k : psf_at w d wl = Ok (im, k) -> psf_used w d wl im k.
Proof.
  unfold psf_at, has_format. destruct (d_psf d) as [p|] eqn:P.
  - destruct (f_format p) as [g|] eqn:G.
    + destruct (String.eqb_spec g "pixel_based") as [->|N1]; [intros E; dbind E i H; injection E as <- <-; eapply Psf_in_pixels; eauto|].
      destruct (String.eqb_spec g "paos") as [->|N2]; [intros E; dbind E i H; destruct i; injection E as <- <-; eapply Psf_paos; eauto|].
      intros E. dbind E fx Hx. dbind E fy Hy. dbind E i H. destruct i. injection E as <- <-. apply lookup_some in Hx, Hy. eapply Psf_other; eauto; rewrite G; congruence.
    + intros E. dbind E fx Hx. dbind E fy Hy. dbind E i H. destruct i. injection E as <- <-. apply lookup_some in Hx, Hy. eapply Psf_other; eauto; rewrite G; congruence.
  - intros E. dbind E fx Hx. dbind E fy Hy. dbind E i H. destruct i. injection E as <- <-. apply lookup_some in Hx, Hy. eapply Psf_airy; eauto.
Qed.
Lemma pixels_or_not d : if has_format d "pixel_based" then in_pixels d else ~ in_pixels d.
Proof.
  unfold has_format, in_pixels. destruct (d_psf d) as [p|]; [|intros (p & H & _); discriminate]. destruct (f_format p) as [g|] eqn:G; [|intros (p' & [= <-] & H); congruence].
  destruct (String.eqb_spec g "pixel_based") as [->|N]; [eauto|]. intros (p' & [= <-] & H). congruence.
Qed.
Lemma window_found w fuel d im size : window_of w fuel d im (0.5 * (d_min d + d_max d)) = Some (Ok size) -> window_is w fuel d im size.
Proof.
  unfold window_of, window_is. replace (0.5 * (d_min d + d_max d)) with ((d_min d + d_max d) / 2) by lra. set (wl := (d_min d + d_max d) / 2). clearbody wl. destruct (d_aperture d) as [a|]; [|discriminate]. intros E. exists a. split; auto.
  pose proof (pixels_or_not d) as PX. destruct (has_format d "pixel_based").
  - split; [intros _|tauto]. destruct (a_radius a) as [r|] eqn:AR.
    + injection E as E. unfold photometer_window in E. rewrite AR in E. injection E as <-. split; [intros r' [= <-]; lra|discriminate].
    + split; [discriminate|]. intros _. destruct (a_ene a) as [e|] eqn:AE.
      * destruct (find_aperture_radius _ e fuel) as [[r|]|] eqn:F; try discriminate; injection E as E; unfold photometer_window in E; rewrite AR, AE in E; [|discriminate]. injection E as <-. exists e, r. split; auto. split; auto. lra.
      * injection E as E. unfold photometer_window in E. rewrite AR, AE in E. discriminate.
  - split; [tauto|]. intros _. destruct (a_radius a) as [r|] eqn:AR.
    + destruct (d_fx d) as [fx|]; [|discriminate]. destruct (d_fy d) as [fy|]; [|discriminate]. cbn in E. exists fx, fy. split; auto. split; auto. injection E as E. unfold photometer_window in E. rewrite AR in E. injection E as <-.
      split; [intros r' [= <-]; unfold Rdiv; cbn [pow]; rewrite !Rinv_mult, Rinv_1; ring|discriminate].
    + destruct (a_ene a) as [e|] eqn:AE.
      * destruct (d_fx d) as [fx|]; [|discriminate]. destruct (d_fy d) as [fy|]; [|discriminate]. cbn in E. exists fx, fy. split; auto. split; auto. split; [discriminate|]. intros _.
        destruct (find_aperture_radius _ e fuel) as [[r|]|] eqn:F; try discriminate; injection E as E; unfold photometer_window in E; rewrite AR, AE in E; [|discriminate]. injection E as <-. exists e, r. split; auto. split; auto. unfold Rdiv; cbn [pow]; rewrite !Rinv_mult, Rinv_1; ring.
      * injection E as E. unfold photometer_window in E. rewrite AR, AE in E. discriminate.
Qed.

Theorem C98_photometer : forall w fuel p l chs name c a prf, p_channel p = Some (Ordered l) -> NoDup (map fst l) -> build_channels w fuel p = Some (Ok chs) -> In (name, c) chs -> h_kind c = Phot a prf ->
  exists d im k size, sget name l = Some d /\ a = d_aperture d /\ psf_used w d ((d_min d + d_max d) / 2) im k /\ prf = concat im /\ window_is w fuel d im size /\
  b_size (h_light c) = [size] /\ b_pix_wl (h_light c) = None /\ b_pix_width (h_light c) = None /\ b_spatial (h_light c) = None.
Proof.
  intros w fuel p l chs name c a prf C ND E I K. destruct (the_description _ _ _ _ _ _ _ C ND E I) as (d & k & q & SG & _ & B & O).
  destruct (path_inv _ _ _ _ _ O) as (wl & els & total & trc & rads & slit & em & fx & _ & _ & _ & _ & _ & _ & HL & _ & _ & HK & _). destruct k.
  2:{ apply spectrometer_shaped in B as (_ & _ & pw & pd & g & X). congruence. }
  unfold photometer_builder in B. dthen B qe Hq. dthen B psf Hp. dthen B size Hs. injection B as <-. destruct psf as [im k]. cbn [fst snd] in *. injection Hp as Hp. rewrite HK in K. cbn in K. injection K as <- <-.
  apply psf_is in Hp. apply window_found in Hs. exists d, im, k, size. rewrite HL. cbn. replace ((d_min d + d_max d) / 2) with (0.5 * (d_min d + d_max d)) by lra. repeat split; auto.
Qed.
Print Assumptions C98_photometer.

Lemma array_max_is l g : array_max l = Ok g -> greatest g l.
Proof. destruct l; [discriminate|]. intros [= <-]. apply rmax_greatest. Qed.
Lemma sums_of_columns im : column_sums im = map (column_light im) (seq 0 (length (hd [] im))).
Proof. unfold column_sums, columns, column_light. destruct im as [|r im]; reflexivity. Qed.
Lemma gain_found im k wfe wl g : prf_gain im k wfe wl = Ok g -> gain_is im k wfe wl g.
Proof.
  unfold prf_gain, gain_is. intros E. dbind E m Hm. dbind E x Hx. injection E as <-. exists m, x. rewrite sums_of_columns in Hx. rewrite map_map in Hx. apply array_max_is in Hx.
  split; [|split; auto]. destruct k as [k|]; [|congruence]. rewrite sums_of_columns in Hm. now apply array_max_is.
Qed.
Lemma table_edges_of tr m M pw pd fuel e bins : spectrometer_table tr m M pw pd fuel = Some (Ok (e, bins)) -> bins <> [] -> e = edges_of bins.
Proof.
  intros E NB. assert (NAT : length pw = length pd \/ length pw <> length pd -> native_table pw pd = Ok (e, bins) -> e = edges_of bins).
  { intros _. unfold native_table. destruct (sort_src (combine pw pd)) as [|p s] eqn:SS; [discriminate|]. destruct (last (p :: s) p) as [c w] eqn:LA. intros X.
    assert (X1 : e = map (fun q => fst q - 0.5 * snd q) (p :: s) ++ [c + 0.5 * w]) by congruence. assert (X2 : bins = map (fun q => bin_at (fst q) (snd q)) (p :: s)) by congruence. clear X. subst.
    unfold edges_of. rewrite map_map, <- map_rev. f_equal. rewrite (app_removelast_last p (l := p :: s)) by discriminate. rewrite LA, rev_app_distr. reflexivity. }
  assert (BET : bins = between e -> e = edges_of bins). { intros ->. destruct e as [|a [|b e]]; try (now destruct NB). now rewrite between_edges. }
  destruct tr as [[|r|t|]|]; cbn in E; try discriminate; try (injection E as E; apply NAT; auto; lia).
  - injection E as E1 E2. apply BET. now subst.
  - unfold variable_table in E. destruct (let* w := _ in _) as [src|]; [|discriminate]. destruct (walk src M fuel m) as [[l|]|]; try discriminate. injection E as E. dbind E e' He. injection E as <- <-. now apply BET.
Qed.
Theorem C98_spectrometer : forall w fuel p l chs name c pw pd gain, p_channel p = Some (Ordered l) -> NoDup (map fst l) -> build_channels w fuel p = Some (Ok chs) -> In (name, c) chs -> h_kind c = Spec pw pd gain ->
  exists d fy wls g, sget name l = Some d /\ d_fy d = Some fy /\
  gain = u_cubic w wls g /\ length wls = 10%nat /\ least (at_ 0 wls) pw /\ greatest (at_ 9 wls) pw /\ (forall i, (i < 9)%nat -> at_ (S i) wls - at_ i wls = (at_ 9 wls - at_ 0 wls) / 9) /\
  Forall2 (fun wl x => exists im k, psf_used w d wl im k /\ gain_is im k (d_wfe d) wl x) wls g /\
  b_pix_wl (h_light c) = Some pw /\ b_pix_width (h_light c) = Some pd /\
  (let keys := d_windows d in
   b_spatial (h_light c) = Some (map (spatial_extent (k_spatial keys) (k_scale keys) (k_radius keys) fy (d_delta d)) (c_bins (h_star c))) /\
   forall s a z, d_solution d = Some s -> tiling a (c_bins (h_star c)) z ->
     b_size (h_light c) = map (fun b => spectral_extent (k_spectral keys) (x_of s) (d_delta d) b * spatial_extent (k_spatial keys) (k_scale keys) (k_radius keys) fy (d_delta d) b) (c_bins (h_star c))).
Proof.
  intros w fuel p l chs name c pw pd gain C ND E I K. destruct (the_description _ _ _ _ _ _ _ C ND E I) as (d & k & q & SG & _ & B & O).
  destruct (path_inv _ _ _ _ _ O) as (wl & els & total & trc & rads & slit & em & fx & _ & _ & _ & _ & _ & _ & HL & _ & HS & HK & _). destruct k.
  { apply photometer_shaped in B as (_ & _ & prf & X). congruence. }
  unfold spectrometer_builder in B. destruct (d_solution d) as [s|] eqn:DS0; [|discriminate]. destruct (negb _); [discriminate|]. destruct (Nat.ltb _ 2); [discriminate|]. destruct (Req_EM_T _ 0); [discriminate|].
  dthen B eb He. dthen B qe Hq. dthen B g Hg. dthen B fy Hf. dthen B size Hs. injection B as <-. destruct eb as [e bins], g as [wls g]. cbn [fst snd] in *. injection Hg as Hg. injection Hf as Hf. injection Hs as Hs. apply lookup_some in Hf.
  rewrite HK in K. cbn in K. injection K as <- <- <-. unfold gain_table in Hg. dbind Hg wls' Hw. dbind Hg g' Hm. injection Hg as -> ->.
  set (pw := pixel_wl s (pixels s (d_min d) (d_max d) (d_delta d))) in *. assert (NP : pw <> []) by (intros X; rewrite X in Hw; discriminate).
  destruct (C70_gain_table_covers_the_pixels pw NP) as (wls1 & W1 & W2 & W3 & W4 & W5). assert (wls1 = wls) as -> by congruence.
  exists d, fy, wls, g. rewrite HL, HS. cbn [b_pix_wl b_pix_width b_spatial b_size c_bins q_pixels q_bins q_spatial q_size option_map fst snd]. repeat (split; [auto; fail|]). split; [|split; [auto|split; [auto|split]]].
  - clear -Hm. revert g Hm. induction wls as [|x wls IH]; intros g E; cbn in E; [injection E as <-; constructor|]. dbind E y Hy. dbind E zs Hzs. injection E as <-. constructor; auto. dbind Hy psf Hp. destruct psf as [im k]. exists im, k. split; [now apply psf_is|now apply gain_found].
  - f_equal. unfold spatial_widths, spatial_extent. destruct (k_spatial (d_windows d)); apply map_ext; auto. intros b. unfold Rdiv. ring.
  - intros s' a z DS TI. assert (s' = s) as -> by congruence. destruct bins as [|b bins].
    + cbn in *. apply times_ok in Hs as (L1 & L2 & _). rewrite spatial_length in L1. destruct size; auto. cbn in *. lia.
    + assert (e = edges_of (b :: bins)) as -> by (eapply table_edges_of; eauto; discriminate). destruct (C36_spectrometer_window (d_windows d) (x_of s) fy (d_delta d) (b :: bins) a z) as (ws & EW & F); auto; [discriminate|]. rewrite EW in Hs. injection Hs as <-. clear -F. set (bs := b :: bins) in *. clearbody bs. induction F; cbn; auto. f_equal; auto.
Qed.
Print Assumptions C98_spectrometer.

(** The quantum efficiency and its column *)
Theorem C98_quantum_efficiency : forall w fuel p l chs name c a z, p_channel p = Some (Ordered l) -> NoDup (map fst l) -> build_channels w fuel p = Some (Ok chs) -> In (name, c) chs ->
  tiling a (c_bins (h_star c)) z -> (forall b, In b (c_bins (h_star c)) -> proper b) ->
  exists d column, sget name l = Some d /\ sget "QE" (cols (h_table c)) = Some column /\ let qe := c_qe (h_star c) in
  match d_qe d with
  | QeValue v => exists u1 u2, in_um (d_from d) = Some u1 /\ in_um (d_to d) = Some u2 /\
      let lo := value (d_from d) * u1 in let hi := value (d_to d) * u2 in
      (0 < lo < hi -> (2 <= u_R w)%nat -> Forall (fun x => x = v) (s_data qe) /\ geometric_grid lo hi (u_R w) (s_wl qe) /\
        Forall2 (fun b x => (lo <= centre b <= hi -> x = Num (Fin v)) /\ (centre b < lo \/ hi < centre b -> x = Num (Fin 0))) (c_bins (h_star c)) column)
  | QeFile t => (sget "wavelength" t = Some (s_wl qe) \/ sget "wavelength" t = None /\ sget "Wavelength" t = Some (s_wl qe)) /\ sget name t = Some (s_data qe) /\
      (increasing (s_wl qe) -> Forall2 (fun b x => exists v, x = Num (Fin v) /\ curve_at (combine (s_wl qe) (s_data qe)) (centre b) v) (c_bins (h_star c)) column)
  end.
Proof.
  intros w fuel p l chs name c a z C ND E I TI PR. destruct (the_description _ _ _ _ _ _ _ C ND E I) as (d & k & q & SG & _ & B & O).
  destruct (path_inv _ _ _ _ _ O) as (wl & els & total & trc & rads & slit & em & fx & _ & _ & _ & _ & _ & _ & HL & _ & HS & HK & _ & _ & _ & EC).
  assert (QB : exists column, qe_of w name d (q_bins q) = Ok (column, q_qe q) /\ q_columns q = builder_columns name (q_bins q) column (q_size q) []).
  { destruct k.
    - unfold photometer_builder in B. dthen B qe Hq. dthen B psf Hp. dthen B size Hs. injection B as <-. injection Hq as Hq. destruct qe as [column s]. exists column. auto.
    - unfold spectrometer_builder in B. destruct (d_solution d) as [s|]; [|discriminate]. destruct (negb _); [discriminate|]. destruct (Nat.ltb _ 2); [discriminate|]. destruct (Req_EM_T _ 0); [discriminate|].
      dthen B eb He. dthen B qe Hq. dthen B g Hg. dthen B fy Hf. dthen B size Hs. injection B as <-. injection Hq as Hq. destruct qe as [column s']. exists column. auto. }
  destruct QB as (column & QO & QC). assert (BI : c_bins (h_star c) = q_bins q) by (rewrite HS; reflexivity). assert (QS : c_qe (h_star c) = q_qe q) by (rewrite HS; reflexivity). rewrite BI in TI, PR. rewrite BI, QS.
  exists d, (map cell_of column). split; auto. split; [rewrite EC, QC; reflexivity|]. cbv zeta. unfold qe_of in QO. destruct (d_qe d) as [t|v] eqn:DQ.
  - assert (X : forall a0 b0, get_qe name (QeFile t) a0 b0 (u_R w) (q_bins q) = Ok (column, q_qe q) -> (sget "wavelength" t = Some (s_wl (q_qe q)) \/ sget "wavelength" t = None /\ sget "Wavelength" t = Some (s_wl (q_qe q))) /\ sget name t = Some (s_data (q_qe q))).
    { intros a0 b0 G. unfold get_qe in G. dbind G s0 Hs. dbind G y Hy. injection G as _ <-. dbind Hs n Hn. dbind Hs x Hx. dbind Hs y0 Hy0. injection Hs as <-. cbn [s_wl s_data]. unfold M_Optics.col in Hx, Hy0. unfold smem, dmem in Hn.
      destruct (sget name t); [|discriminate]. injection Hy0 as ->. split; auto.
      destruct (sget "wavelength" t) eqn:W1; [injection Hn as <-; rewrite W1 in Hx; left; congruence|]. destruct (sget "Wavelength" t) eqn:W2; [|discriminate]. injection Hn as <-. rewrite W2 in Hx. right. split; auto. congruence. }
    destruct (X _ _ QO) as [X1 X2]. split; auto. split; auto. intros INC. destruct (C60_tabulated_quantum_efficiency _ _ _ _ _ _ _ _ _ _ TI PR QO INC) as (_ & _ & F).
    clear -F. induction F as [|b o bs os (v & -> & H)]; cbn; constructor; auto. exists v. auto.
  - unfold in_microns in QO. destruct (in_um (d_from d)) as [u1|] eqn:U1; [|discriminate]. destruct (in_um (d_to d)) as [u2|] eqn:U2; [|discriminate]. cbn [bind] in QO. exists u1, u2. split; auto. split; auto. intros V N.
    assert (V1 : um_of (d_from d) = value (d_from d) * u1) by (unfold um_of; now rewrite U1). assert (V2 : um_of (d_to d) = value (d_to d) * u2) by (unfold um_of; now rewrite U2). rewrite V1, V2 in QO.
    destruct (C60_constant_quantum_efficiency _ _ _ _ _ _ _ _ _ _ V N TI PR QO) as (F & _ & _ & DV & _). split; auto. split.
    + unfold get_qe in QO. cbn [bind] in QO. dbind QO y Hy. injection QO as _ <-. cbn [s_wl]. split; [unfold logspace; now rewrite map_length, seq_length|]. intros i Hi. unfold logspace. now rewrite at_map_seq.
    + clear -F. induction F as [|b o bs os (H1 & H2)]; cbn; constructor; auto. split; intros H; [rewrite (H1 H)|rewrite (H2 H)]; reflexivity.
Qed.
Print Assumptions C98_quantum_efficiency.
