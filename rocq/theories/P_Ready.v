(** Complete descriptions of channels can be built, and what is built works. *)
From Coq Require Import Reals Lra Psatz Sorting.Sorted.
From Verif Require Import Base Dict PyStr XR M_Signal M_Optics M_Light M_Bins M_Psf M_Omega M_Star M_Source S_Signal S_Optics S_Light S_Bins S_Star S_Success S_Foreground L_Signal L_Optics L_Light L_Bins P_Optics P_Bins P_Windows P_Light P_Success P_Omega.
From Verif Require M_Noise S_Noise.
From Verif Require Import M_Table L_Table M_Observe S_Observe S_Works M_Build S_Build S_Ready L_Build L_Ready P_Build.
Open Scope list_scope.
Open Scope R_scope.

Definition detector_grid (w : outer) (d : description) : list R := logspace (value (d_from d)) (value (d_to d)) (u_R w).
Lemma detector_grid_ok w d : 0 < value (d_from d) < value (d_to d) -> (2 <= u_R w)%nat -> wavelength_grid (detector_grid w d).
Proof.
  intros V N. unfold detector_grid. destruct (logspace_spec _ _ _ V N) as (G1 & G2 & _ & _). split; auto. split; [lia|]. intros x I. unfold logspace in I. apply in_map_iff in I as (k & <- & _). apply Rmult_lt_0_compat; [lra|]. unfold Rpower. apply exp_pos.
Qed.
Lemma curve_self wl v : wavelength_grid wl -> curve {| s_wl := wl; s_data := map (fun _ => v) wl |}.
Proof. intros W. split; cbn; [apply increasing_nondecreasing, W|unfold one_value_per_wavelength; cbn; apply map_length]. Qed.
Lemma overlaps_self wl s : wavelength_grid wl -> s_wl s = wl -> overlaps wl s.
Proof.
  intros (I & L & P) E. destruct wl as [|x [|y l]]; try (cbn in L; lia). 
  destruct (least_exists (x :: y :: l)) as (lo & Hlo); [discriminate|]. destruct (greatest_exists (x :: y :: l)) as (hi & Hhi); [discriminate|].
  exists lo, hi, x, y. rewrite E. pose proof Hlo as [L1 L2]. pose proof Hhi as [H1 H2].
  assert (Ix : In x (x :: y :: l)) by (now left). assert (Iy : In y (x :: y :: l)) by (right; now left).
  pose proof (P _ L1). pose proof (P _ H1). pose proof (L2 _ Ix). pose proof (L2 _ Iy). pose proof (H2 _ Ix). pose proof (H2 _ Iy).
  repeat (split; auto); try lra. apply StronglySorted_inv in I as [_ I]. apply Forall_cons_iff in I as [I _]. lra.
Qed.

Definition pixel_ready (w : outer) (p : payload) (d : description) (q : parts) : Prop :=
  (q_pixels q = None /\ q_spatial q = None /\ forall v, ~ has_slit p d v) \/
  (exists pw pd widths, q_pixels q = Some (pw, pd) /\ q_spatial q = Some widths /\ nonneg widths /\ wavelength_grid pw /\ length pd = length pw /\ nonneg pd /\
   forall v, has_slit p d v -> slit_fits (d_delta d) v pw (map (fun b => (left_edge b, right_edge b)) (q_bins q)) /\ overlaps pw {| s_wl := detector_grid w d; s_data := detector_grid w d |}).
Lemma path_builds w p name d q : complete_common w p name d -> shaped name q -> q_bins q <> [] -> nonneg (q_size q) -> curve (q_qe q) -> fractions (s_data (q_qe q)) -> s_wl (q_qe q) <> [] -> overlaps (detector_grid w d) (q_qe q) ->
  pixel_ready w p d q -> (forall b, In b (q_bins q) -> 0 < centre b) ->
  exists c, build_optical_path w p d q = Ok c /\ h_kind c = q_kind q /\ h_noise c = d_detector d /\ c_bins (h_star c) = q_bins q /\ sensible_detector c /\
  0 <= c_area (h_star c) /\ c_force (h_star c) <> None /\ c_qe (h_star c) = q_qe q /\ curve (c_tr (h_star c)) /\ fractions (s_data (c_tr (h_star c))) /\ s_wl (c_tr (h_star c)) = detector_grid w d /\
  forall wl, overlaps wl {| s_wl := detector_grid w d; s_data := detector_grid w d |} -> overlaps wl (q_qe q) -> (forall pw pd, q_pixels q = Some (pw, pd) -> overlaps pw {| s_wl := wl; s_data := wl |}) ->
    lets_diffuse_light (h_light c) (map (fun b => (left_edge b, right_edge b)) (c_bins (h_star c))) wl.
Proof.
  intros (U1 & U2 & V & N & DD & _ & (o & own & force & PO & DO & OF & OA & S1 & S2) & (fx & fy & FX & FY & Px & Py & P4) & _ & CN & DET) SH NB NS CQ FQ NQ OQ PR PC.
  pose proof (detector_grid_ok w d V N) as G. set (g := detector_grid w d) in *.
  assert (OG : optical_grid w d = Ok g). { unfold optical_grid. rewrite U1, U2. destruct (Nat.eqb_spec (u_R w) 1); [lia|reflexivity]. }
  destruct (optics_build g _ S1) as (e1 & E1 & A1). destruct (optics_build g _ S2) as (e2 & E2 & A2).
  set (els := prepend e1 e2). assert (OP : optical_path g p d = Ok els). { unfold optical_path. rewrite PO. cbn [lookup bind]. rewrite E1. cbn [bind]. rewrite DO. cbn [lookup bind]. rewrite E2. reflexivity. }
  set (slitty := fun v => has_slit p d v).
  assert (AE : each (fun e => lets g e /\ forall v, is_slit e -> slit_width_of e = Some v -> slitty v) els).
  { assert (X : forall o', (Some o' = option_map o_elements (p_optics p) \/ Some o' = d_optics d) -> forall els', each (comes_from g o') els' -> each (fun e => lets g e /\ forall v, is_slit e -> slit_width_of e = Some v -> slitty v) els').
    { intros o' O els' A k e I. destruct (A k e I) as (dd & (GS & GF & GE & GT & GD & GY & GW) & FR). split; [unfold lets; auto|]. intros v IS SV. destruct FR as [FR|[_ FR]]; [|now destruct FR].
      exists o', dd. split; auto. split; auto. unfold slit_of, says. unfold is_slit in IS. rewrite GY, IS. split; auto. unfold slit_width_of in SV. rewrite GD in SV. destruct (sget "width" dd) as [[x|x|x]|]; congruence. }
    apply prepend_each; [apply (X (o_elements o))|apply (X own)]; auto. left. rewrite PO. reflexivity. }
  assert (FL : Forall (lets g) (sequence els)). { apply Forall_forall. intros e I. unfold sequence in I. apply in_map_iff in I as ([k e0] & <- & I). now apply (AE k). }
  assert (SA : Forall (sampled_on g) (sequence els)). { eapply Forall_impl; [|exact FL]. intros e X. apply X. }
  destruct (C24_total_is_product g els SA) as (total & ET & LT & _).
  assert (FT : fractions total).
  { intros x I. destruct (In_nth _ _ 0 I) as (i & Hi & <-). fold (at_ i total). eapply (C24_within_unit_interval g els total i SA); eauto; [|congruence].
    eapply Forall_impl; [|exact FL]. intros e ((L1 & _) & F & _) k Hk. apply F. apply at_In. congruence. }
  set (tr0 := {| s_wl := g; s_data := total |}).
  assert (TC : exists column tr, get_transmission_column (q_bins q) (Some force) (d_min d) (d_max d) tr0 = Ok (column, tr) /\ s_wl tr = g /\ length (s_data tr) = length g /\ fractions (s_data tr)).
  { unfold get_transmission_column. cbn [tr0 s_wl s_data]. destruct (interp1d_ok g total (map centre (q_bins q))) as [y Hy]; auto. { destruct G as (_ & X & _). intros E. rewrite E in X. cbn in X. lia. }
    rewrite Hy. cbn [bind]. destruct force; do 2 eexists; (split; [reflexivity|]); cbn; (split; [reflexivity|]); split; auto; [now apply zero_length|now apply zero_fractions]. }
  destruct TC as (column & tr & TC & TW & TL & TF).
  destruct (chain_lit g slitty (proj2 (proj2 G)) (sequence els) [] None FL) as (rads & slit & CH & QS & LR & ND).
  { intros e v I IS SV. unfold sequence in I. apply in_map_iff in I as ([k e0] & <- & I). exact (proj2 (AE k e0 I) v IS SV). }
  { discriminate. } { intros k r []. } { constructor. }
  set (light := {| b_slit := slit; b_pix_wl := option_map fst (q_pixels q); b_pix_width := option_map snd (q_pixels q); b_spatial := q_spatial q; b_size := q_size q; b_qe := q_qe q; b_tr := tr; b_delta := d_delta d; b_omega := omega_pix fx (d_fy d) |}).
  set (edges := map (fun b => (left_edge b, right_edge b)) (q_bins q)).
  pose proof SH as ((qcol & LQ & EQ) & LS & LSP & _).
  assert (NE : edges <> []) by (unfold edges; destruct (q_bins q); [congruence|discriminate]). assert (LE : length edges = length (q_bins q)) by apply map_length.
  assert (SR : slit_ready light edges g).
  { intros sl E. cbn in E. subst slit. specialize (QS sl eq_refl). destruct PR as [(_ & _ & NO)|(pw & pd & widths & P1 & P2 & P3 & P4' & P5 & P6 & P7)]; [now apply NO in QS|].
    destruct (P7 sl QS) as [SF OV]. exists pw, pd, widths. cbn. rewrite P1, P2. cbn. repeat (split; auto). rewrite LE. now apply LSP. }
  destruct (proj1 (C88_curve_on_a_grid g (q_qe q) G CQ)) as [_ X]. destruct (X OQ) as [q1 RQ]. clear X.
  destruct (sum_light_ok light edges g G NE ltac:(cbn; congruence) SR rads (q_qe q) q1 {| by_element := []; total_max := map (fun _ => 0) edges; total_signal := map (fun _ => 0) edges |} RQ) as (em & EM).
  1: (intros k r I; now destruct (LR k r I) as [[_ L] _]). 1, 2: (cbn; apply map_length).
  assert (OM : 0 <= b_omega light <= PI).
  { cbn. rewrite FY. destruct (C55_bounds fx fy Px Py) as [B1 B2]. split; [lra|]. pose proof PI_RGT_0 as HP. assert (PI / (4 * fx * fy) <= PI); [|lra]. apply Rmult_le_reg_r with (4 * fx * fy); [lra|]. unfold Rdiv. rewrite Rmult_assoc, Rinv_l by lra. rewrite Rmult_1_r. rewrite <- (Rmult_1_r PI) at 1. apply Rmult_le_compat_l; lra. }
  assert (PXN : forall pw, b_pix_wl light = Some pw -> nonneg pw). { cbn. intros pw E. destruct PR as [(P1 & _)|(pw' & pd & widths & P1 & _ & _ & (_ & _ & PP) & _)]; rewrite P1 in E; [discriminate|]. injection E as <-. intros x I. apply Rlt_le. auto. }
  assert (PXD : forall pd, b_pix_width light = Some pd -> nonneg pd). { cbn. intros pd E. destruct PR as [(P1 & _)|(pw' & pd' & widths & P1 & _ & _ & _ & _ & PP & _)]; rewrite P1 in E; [discriminate|]. injection E as <-. auto. }
  assert (PXS : forall ws, b_spatial light = Some ws -> nonneg ws). { cbn. intros ws E. destruct PR as [(_ & P1 & _)|(pw' & pd' & widths & _ & P1 & PP & _)]; rewrite P1 in E; [discriminate|]. injection E as <-. auto. }
  assert (SD : P_Light.sound light). { unfold P_Light.sound. split; [apply fractions_nonneg; auto|]. repeat (split; auto). }
  assert (CS : compute_signal light edges g rads = Ok em) by exact EM.
  assert (NN : nonneg (total_signal em) /\ nonneg (total_max em)).
  { destruct (C28_nonnegative light edges g rads em SD G NE ND) as (A & B & _); auto. intros k r I. now destruct (LR k r I) as [[L _] _]. }
  eexists. split.
  { unfold build_optical_path. rewrite OG. cbn [bind]. rewrite OP. cbn [bind]. unfold M_Optics.col. rewrite ET. cbn [bind]. rewrite PO, OF. fold tr0. rewrite TC. cbn [bind]. unfold chain. fold (sequence els). rewrite CH. cbn [bind]. rewrite FX. cbn [lookup bind]. fold light edges. rewrite CS. cbn [bind]. reflexivity. }
  cbn [h_kind h_noise h_star h_light c_bins c_area c_force c_qe c_tr]. split; auto. split; auto. split; auto. split; [|split; [|split; [|split; [|split; [|split; [|split]]]]]]; auto.
  - split; [exact DET|]. cbn [h_table cols]. rewrite EQ. intros k col SG K. apply sget_In in SG. cbn in SG. repeat (destruct SG as [SG|SG]; [injection SG as <- <-|]); try (exfalso; destruct K as [K|[K|[K|K]]]; discriminate).
    + intros v I. apply in_map_iff in I as (b & <- & I). exists (centre b). split; auto. apply Rlt_le. auto.
    + intros v I. apply in_map_iff in I as (b & <- & I). exists b. auto.
    + intros v I. apply in_map_iff in I as (b & <- & I). exists b. split; auto. destruct NN as [N1 N2]; auto.
    + intros v I. apply in_map_iff in I as (b & <- & I). exists b. split; auto. destruct NN as [N1 N2]; auto.
    + destruct SG.
  - discriminate.
  - split; [rewrite TW; apply increasing_nondecreasing, G|]. unfold one_value_per_wavelength. congruence.
  - intros wl O1 O2 O3. fold edges light. unfold lets_diffuse_light. cbn [light b_qe b_tr b_size b_omega b_pix_wl b_pix_width b_spatial b_slit b_delta].
    split; [now apply fractions_nonneg|]. split; [now apply fractions_nonneg|]. split; auto. split; [exact OM|]. split. { split; [rewrite TW; apply increasing_nondecreasing, G|]. unfold one_value_per_wavelength. congruence. }
    split; auto. split. { unfold overlaps in *. rewrite TW. exact O1. } split; [exact PXN|]. split; [exact PXD|]. split; [exact PXS|].
    destruct slit as [sl|]; auto. split; auto. destruct (SR sl eq_refl) as (pw & pd & widths & B1 & B2 & B3 & B4 & B5 & B6 & B7 & B8). exists pw, pd, widths. cbn in B1, B2, B3. repeat (split; auto).
    destruct (q_pixels q) as [[pw' pd']|] eqn:QP; [|discriminate]. cbn in B1. injection B1 as ->. eapply O3; eauto.
Qed.
Lemma um_value x : in_um x = Some 1 -> um_of x = value x.
Proof. unfold um_of. intros ->. apply Rmult_1_r. Qed.
Lemma wavelengths_named t x : wavelengths_of t x -> exists n, (if smem "wavelength" t then Ok "wavelength"%string else if smem "Wavelength" t then Ok "Wavelength"%string else Err ValueError) = Ok n /\ M_Optics.col t n = Ok x.
Proof. unfold smem, dmem, M_Optics.col. intros [W|[W1 W2]]; rewrite ?W, ?W1, ?W2; eexists; (split; [reflexivity|]); rewrite ?W, ?W2; reflexivity. Qed.
Lemma qe_builds w p name d bins : complete_common w p name d -> exists column s, qe_of w name d bins = Ok (column, s) /\ curve s /\ fractions (s_data s) /\ s_wl s <> [] /\ overlaps (detector_grid w d) s /\ forall wl, in_range w name d wl -> overlaps wl s.
Proof.
  intros (U1 & U2 & V & N & _ & _ & _ & _ & Q & _). pose proof (detector_grid_ok w d V N) as G. fold (detector_grid w d) in Q. unfold sensible_qe in Q. unfold qe_of. destruct (d_qe d) as [t|v] eqn:DQ.
  - destruct Q as (x & y & W & NY & NX & CU & FY & OV). destruct (wavelengths_named t x W) as (n & E1 & E2). unfold get_qe. rewrite E1. cbn [bind]. rewrite E2. cbn [bind]. unfold M_Optics.col. rewrite NY. cbn [bind s_wl s_data].
    destruct (interp1d_ok x y (map centre bins) NX (proj2 CU)) as [z Hz]. rewrite Hz. cbn [bind]. do 2 eexists. split; [reflexivity|]. split; auto. split; auto. split; auto. split; auto.
    intros wl (_ & R1 & _). rewrite DQ in R1. exact (R1 x W).
  - unfold in_microns. rewrite U1, U2. cbn [bind]. rewrite (um_value _ U1), (um_value _ U2). unfold get_qe. cbn [bind s_wl s_data]. fold (detector_grid w d). set (g := detector_grid w d) in *.
    assert (NX : g <> []) by (destruct G as (_ & X & _); intros E; rewrite E in X; cbn in X; lia).
    destruct (interp1d_ok g (map (fun _ => v * 1) g) (map centre bins) NX ltac:(apply map_length)) as [z Hz]. rewrite Hz. cbn [bind]. do 2 eexists. split; [reflexivity|]. cbn. split; [now apply curve_self|]. split.
    { intros x I. apply in_map_iff in I as (_ & <- & _). lra. } split; auto. split; [now apply overlaps_self|]. intros wl (R1 & _). exact R1.
Qed.
Lemma square_nonneg r : 0 <= r ^ 2. Proof. nra. Qed.
Lemma div_nonneg a b : 0 <= a -> 0 < b -> 0 <= a / b.
Proof. intros A B. apply Rmult_le_pos; auto. left. now apply Rinv_0_lt_compat. Qed.

Lemma pixel_units d : if has_format d "pixel_based" then in_pixel_units d else ~ in_pixel_units d.
Proof.
  unfold has_format, in_pixel_units. destruct (d_psf d) as [f|]; [|intros (f & H & _); discriminate]. destruct (f_format f) as [g|] eqn:G; [|intros (f' & [= <-] & H); congruence].
  destruct (String.eqb_spec g "pixel_based") as [->|N]; [eauto|intros (f' & [= <-] & H); congruence].
Qed.
Theorem C96_photometer_builds : forall w fuel p name d, complete_photometer w fuel p name d -> exists c, build_one w fuel p name d = Some (Ok c) /\ forall wl, in_range w name d wl -> works_at wl c.
Proof.
  intros w fuel p name d (CC & (s & DC & LS) & NSL & im & k & a & PS & NI & NNI & DA & AC1 & AC2 & AP). pose proof CC as (U1 & U2 & V & N & DD & DM & _ & (fx & fy & FX & FY & Px & Py & _) & _).
  unfold build_one. rewrite DC. unfold build_instrument, class_named. rewrite LS. cbn [String.eqb Ascii.eqb Bool.eqb]. unfold build.
  destruct (qe_builds w p name d (photometer_table (d_min d) (d_max d)) CC) as (qcol & qs & QE & CQ & FQ & NQ & OQ & RQ).
  replace ((d_min d + d_max d) / 2) with (0.5 * (d_min d + d_max d)) in PS, AP by lra. set (wl0 := 0.5 * (d_min d + d_max d)) in *.
  assert (WL0 : 0 < wl0) by (unfold wl0; lra).
  assert (WIN : exists size, window_of w fuel d im wl0 = Some (Ok size) /\ 0 <= size).
  { unfold window_of. rewrite DA. pose proof (pixel_units d) as HF. destruct (has_format d "pixel_based").
    - destruct AP as [(r & AR)|(AR & e & r & AE & FR & _)]; rewrite ?AR, ?AE.
      + eexists. unfold photometer_window. rewrite AR. split; [reflexivity|apply square_nonneg].
      + rewrite (FR HF). eexists. unfold photometer_window. rewrite AR, AE. cbn [bind]. split; [reflexivity|]. apply Rmult_le_pos; [left; apply PI_RGT_0|apply square_nonneg].
    - assert (LK : (match a_radius a, a_ene a with None, None => Ok (1, 1, 1) | _, _ => let* fx0 := lookup (d_fx d) in let* fy0 := lookup (d_fy d) in Ok (fx0, fy0, wl0) end) = Ok (fx, fy, wl0)).
      { rewrite FX, FY. destruct AP as [(r & AR)|(AR & e & r & AE & FR)]; rewrite AR, ?AE; reflexivity. }
      rewrite LK. assert (D2 : 0 < d_delta d ^ 2) by (apply pow_lt; auto). destruct AP as [(r & AR)|(AR & e & r & AE & _ & FR)]; rewrite ?AR, ?AE.
      + eexists. unfold photometer_window. rewrite AR. split; [reflexivity|]. apply div_nonneg; auto. pose proof (square_nonneg r). repeat (apply Rmult_le_pos; [|lra]); lra.
      + rewrite (FR HF fx fy FX FY). eexists. unfold photometer_window. rewrite AR, AE. cbn [bind]. split; [reflexivity|]. apply div_nonneg; auto. pose proof PI_RGT_0. pose proof (square_nonneg r). repeat (apply Rmult_le_pos; [|lra]); lra. }
  destruct WIN as (size & WS & WP).
  assert (PB : photometer_builder w fuel name d [] = Some (Ok {| q_bins := photometer_table (d_min d) (d_max d); q_qe := qs; q_kind := Phot (d_aperture d) (concat im); q_pixels := None; q_spatial := None; q_size := [size];
                 q_columns := builder_columns name (photometer_table (d_min d) (d_max d)) qcol [size] [] |})).
  { unfold photometer_builder. cbv zeta. rewrite QE. cbn [andthen]. fold wl0. rewrite PS. cbn [andthen fst snd]. rewrite WS. reflexivity. }
  rewrite PB. cbn [andthen]. destruct (photometer_shaped _ _ _ _ _ PB) as (SH & _ & _).
  destruct (path_builds w p name d _ CC SH) as (c & BP & HK & HN & HB & SD & CA & CF & CQE & CT & FT & WT & LD); auto.
  - discriminate.
  - intros x [<-|[]]. exact WP.
  - left. cbn. auto.
  - cbn. intros b [<-|[]]. cbn. fold wl0. lra.
  - exists c. split; [now rewrite BP|]. intros wl IR. pose proof IR as (R1 & R2 & _). unfold works_at. split; auto. split; [apply LD; auto; discriminate|].
    unfold lets_star_light. rewrite HK, CQE. cbn. rewrite DA. repeat (split; auto).
    + unfold overlaps in *. rewrite WT. exact R1.
    + exists a. auto.
Qed.
Print Assumptions C96_photometer_builds.

Lemma table_edges tr m M pw pd fuel e bins : spectrometer_table tr m M pw pd fuel = Some (Ok (e, bins)) -> bins <> [] -> length e = S (length bins).
Proof.
  intros E NB. assert (NAT : native_table pw pd = Ok (e, bins) -> length e = S (length bins)).
  { unfold native_table. destruct (sort_src (combine pw pd)) as [|p s] eqn:SS; [discriminate|]. destruct (last (p :: s) p). intros X. assert (X1 : e = map (fun q => fst q - 0.5 * snd q) (p :: s) ++ [r + 0.5 * r0]) by congruence. assert (X2 : bins = map (fun q => bin_at (fst q) (snd q)) (p :: s)) by congruence. rewrite X1, X2, app_length, !map_length. cbn. lia. }
  assert (BET : bins = between e -> length e = S (length bins)). { intros ->. rewrite between_length. destruct e; [now destruct NB|]. cbn. lia. }
  destruct tr as [[|r|t|]|]; cbn in E; try discriminate; try (injection E as E; auto; fail).
  - injection E as E1 E2. apply BET. now subst.
  - unfold variable_table in E. destruct (let* w := _ in _) as [src|]; [|discriminate]. destruct (walk src M fuel m) as [[l|]|]; try discriminate. injection E as E. dbind E e' He. injection E as <- <-. now apply BET.
Qed.
Lemma spectral_widths_length x delta : forall e, length (spectral_widths x delta e) = (length e - 1)%nat.
Proof. induction e as [|a [|b e] IH]; auto. cbn [spectral_widths length] in *. lia. Qed.
Lemma spectral_widths_nonneg x delta : 0 < delta -> forall e, nonneg (spectral_widths x delta e).
Proof. intros D. induction e as [|a [|b e] IH]; intros v I; try destruct I as [I|I]; try destruct I. - subst. apply div_nonneg; auto. apply Rabs_pos. - apply IH. exact I. Qed.
Lemma windows_build k x fy delta e bins : length e = S (length bins) -> 0 < fy -> 0 < delta -> (forall b, In b bins -> 0 < centre b) -> (forall v, k_spectral k = Some v \/ k_spatial k = Some v \/ k_scale k = Some v -> 0 <= v) -> (forall f x, k_radius k = Some f -> 0 <= f x) ->
  exists sizes, spectrometer_windows k x fy delta e bins = Ok sizes /\ nonneg sizes /\ nonneg (spatial_widths k fy delta bins).
Proof.
  intros LE PF PD PC KV KR. assert (NS : nonneg (spatial_widths k fy delta bins)).
  { unfold spatial_widths. destruct (k_spatial k) as [v|] eqn:KS; intros y I; apply in_map_iff in I as (b & <- & I); auto. specialize (PC b I).
    apply Rmult_le_pos; [apply div_nonneg; auto; repeat (apply Rmult_le_pos; [|lra])|].
    - destruct (k_radius k) as [f|] eqn:KF; [specialize (KR f (centre b) eq_refl)|]; lra.
    - destruct (k_scale k) as [v|]; [auto|lra]. }
  assert (NW : nonneg (spectral_windows k x delta e bins)).
  { unfold spectral_windows. destruct (k_spectral k) as [v|] eqn:KS; [intros y I; apply in_map_iff in I as (b & <- & I); auto|]. now apply spectral_widths_nonneg. }
  assert (LW : length (spectral_windows k x delta e bins) = length bins). { unfold spectral_windows. destruct (k_spectral k); [apply map_length|]. rewrite spectral_widths_length. lia. }
  unfold spectrometer_windows. rewrite times_same by now rewrite spatial_length. eexists. split; [reflexivity|]. split; auto. now apply mul_nonneg.
Qed.

Theorem C96_spectrometer_builds : forall w fuel p name d, complete_spectrometer w fuel p name d -> exists c, build_one w fuel p name d = Some (Ok c) /\ forall wl, in_range w name d wl -> works_at wl c.
Proof.
  intros w fuel p name d (CC & (cl & DC & LS) & KV & KR & s & e & bins & wls & g & DS & DI & IN & LP & TB & NB & BP & GT & GO & GN & SL). cbv zeta in *.
  pose proof CC as (U1 & U2 & V & N & DD & DM & _ & (fx & fy & FX & FY & Px & Py & _) & _).
  set (px := pixels s (d_min d) (d_max d) (d_delta d)) in *. set (pw := pixel_wl s px) in *. set (pd := pixel_width s (d_delta d) px) in *.
  destruct (C63_pixels_cover_the_band s (d_min d) (d_max d) (d_delta d) DI (proj2 DM) DD) as (_ & _ & PB & _ & _ & _ & PD). fold px pw pd in PB, PD.
  assert (LPD : length pd = length pw) by (unfold pd, pw, pixel_width, pixel_wl; now rewrite !map_length).
  assert (PW : wavelength_grid pw). { split; auto. split; auto. intros x I. apply PB in I. lra. }
  unfold build_one. rewrite DC. unfold build_instrument, class_named. rewrite LS. cbn [String.eqb Ascii.eqb Bool.eqb]. unfold build.
  destruct (qe_builds w p name d bins CC) as (qcol & qs & QE & CQ & FQ & NQ & OQ & RQ).
  assert (LE := table_edges _ _ _ _ _ _ _ _ TB NB).
  destruct (windows_build (d_windows d) (x_of s) fy (d_delta d) e bins LE Py DD (fun b I => proj1 (BP b I)) KV KR) as (sizes & WS & NS & NSP).
  set (q := {| q_bins := bins; q_qe := qs; q_kind := Spec pw pd (u_cubic w wls g); q_pixels := Some (pw, pd); q_spatial := Some (spatial_widths (d_windows d) fy (d_delta d) bins); q_size := sizes; q_columns := builder_columns name bins qcol sizes [] |}).
  assert (SB : spectrometer_builder w fuel name d [] = Some (Ok q)).
  { unfold spectrometer_builder. rewrite DS. destruct DI as (L1 & L2 & _). rewrite L1, Nat.eqb_refl. cbn [negb]. destruct (Nat.ltb_spec (length (sol_x s)) 2); [lia|]. destruct (Req_EM_T (d_delta d) 0); [lra|]. fold px pw pd. rewrite TB. cbn [andthen snd fst]. rewrite QE. cbn [andthen snd fst]. rewrite GT. cbn [andthen snd fst]. rewrite FY. cbn [lookup andthen]. rewrite WS. reflexivity. }
  rewrite SB. cbn [andthen]. destruct (spectrometer_shaped _ _ _ _ _ SB) as (SH & _ & _).
  destruct (path_builds w p name d q CC SH) as (c & BU & HK & HN & HB & SD & CA & CF & CQE & CT & FT & WT & LD); auto.
  - right. exists pw, pd, (spatial_widths (d_windows d) fy (d_delta d) bins). cbn. repeat (split; auto). intros x I. apply Rlt_le. auto.
  - cbn. intros b I. now apply BP.
  - exists c. split; [now rewrite BU|]. intros wl IR. pose proof IR as (R1 & R2 & R3). specialize (R3 s cl DS DC LS). fold px pw in R3. unfold works_at. split; auto. split.
    + apply LD; [exact R1|cbn; auto|]. intros pw' pd' [= <- <-]. exact R3.
    + unfold lets_star_light. rewrite HK, CQE, HB. cbn. repeat (split; auto).
      * unfold overlaps in *. rewrite WT. exact R1.
      * intros x I. apply Rlt_le. auto.
      * intros b I. now apply BP.
Qed.
Print Assumptions C96_spectrometer_builds.

(** All channels of a payload *)
Theorem C96_complete_payload_builds : forall w fuel p l, p_channel p = Some (Ordered l) -> l <> [] -> named l -> (forall name d r, In (name, d) l -> d_targetR d = Some (FixedR r) -> 0 < r) ->
  (forall name d, In (name, d) l -> complete_photometer w fuel p name d \/ complete_spectrometer w fuel p name d) ->
  exists chs, build_channels w fuel p = Some (Ok chs) /\ instruments channel_columns chs /\
  Forall2 (fun nd nc => fst nc = fst nd /\ h_noise (snd nc) = d_detector (snd nd) /\ forall wl, in_range w (fst nd) (snd nd) wl -> works_at wl (snd nc)) l chs.
Proof.
  intros w fuel p l C NE NM RP CO. assert (X : exists out, Forall2 (fun nd c => build_one w fuel p (fst nd) (snd nd) = Some (Ok c) /\ forall wl, in_range w (fst nd) (snd nd) wl -> works_at wl c) l out).
  { clear NM NE C RP. induction l as [|[n d] l IH]; [exists []; constructor|]. destruct IH as (out & IH); [intros; apply CO; now right|].
    assert (Y : exists c, build_one w fuel p n d = Some (Ok c) /\ forall wl, in_range w n d wl -> works_at wl c). { destruct (CO n d (or_introl eq_refl)); [now apply C96_photometer_builds|now apply C96_spectrometer_builds]. }
    destruct Y as (c & Y). exists (c :: out). constructor; auto. }
  destruct X as (out & F). assert (E : build_channels w fuel p = Some (Ok (combine (map fst l) out))).
  { unfold build_channels. rewrite C. apply build_all_turn. exists (Ok out). split; [|reflexivity]. constructor. clear -F. induction F; constructor; auto. apply H. }
  exists (combine (map fst l) out). split; auto. split.
  - eapply C90_built_channels_are_instruments; eauto. intros n d I. split; [|intros r; now apply (RP n)]. destruct (CO n d I) as [[(_ & _ & _ & _ & _ & DM & _) _]|[(_ & _ & _ & _ & _ & DM & _) _]]; exact DM.
  - clear -F. induction F as [|[n d] c l out [B W] F IH]; cbn; constructor; auto. cbn. split; auto. split; auto. cbn in B. apply built_inv in B as (k & q & _ & _ & _ & O). destruct (path_inv _ _ _ _ _ O) as (_ & _ & _ & _ & _ & _ & _ & _ & _ & _ & _ & _ & _ & _ & _ & _ & _ & _ & HN & _). exact HN.
Qed.
Print Assumptions C96_complete_payload_builds.
