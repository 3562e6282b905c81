(** Telescopes of different area (C117). *)
From Coq Require Import Reals Lra Psatz Lia.
From Verif Require Import Base Dict PyStr XR M_Signal M_Optics M_Light M_Bins M_Psf M_Omega M_Star M_Source M_Foreground S_Signal S_Optics S_Light S_Bins S_Star S_Success S_Foreground L_Signal L_Optics L_Light L_Bins P_Optics P_Bins P_Windows P_Light P_Success P_Omega P_Star P_Source P_Foreground.
From Verif Require M_Noise P_Noise L_Foreground S_Source P_Star.
From Verif Require Import S_Noise L_Noise.
From Verif Require Import M_Table L_Table P_Table M_Observe S_Observe L_Observe L_Stages L_Outcome S_Works S_Complete P_Observe P_Outcome P_Works P_Complete P_Instance M_Build S_Build S_Ready L_Build L_Ready P_Build P_Ready P_Mission P_Telescope S_Full P_Full S_Bright L_Bright P_Bright P_BrightMission L_Compare S_Area.
Open Scope list_scope.
Open Scope R_scope.

(** ** A channel behind a telescope of [k] times the area *)
Definition wide (k : R) (c : channel) : channel :=
  {| c_bins := c_bins c; c_force := c_force c; c_min := c_min c; c_max := c_max c; c_qe := c_qe c; c_tr := c_tr c; c_area := k * c_area c; c_sky := c_sky c |}.
Definition widen (k : R) (c : chan) : chan :=
  {| h_star := wide k (h_star c); h_kind := h_kind c; h_light := h_light c; h_noise := h_noise c; h_common := h_common c; h_table := h_table c |}.
Definition gathered (k : R) (o : star_table) : star_table :=
  {| o_sky := o_sky o; o_flux := o_flux o; o_signal := scaled k (o_signal o); o_aperture := scaled k (o_aperture o); o_max := scaled k (o_max o) |}.
Lemma scaled_scaled a k l : scaled (k * a) l = scaled k (scaled a l).
Proof. unfold scaled. rewrite map_map. apply map_ext. intros. ring. Qed.
Lemma photometer_area k c a prf star sky : propagate_photometer (wide k c) a prf star sky = match propagate_photometer c a prf star sky with Ok (o, t) => Ok (gathered k o, t) | Err e => Err e end.
Proof.
  unfold propagate_photometer. change (get_efficiency (wide k c)) with (get_efficiency c). change (force_edges (wide k c)) with (force_edges c). cbn [wide c_area]. destruct (get_efficiency c (s_wl star) sky) as [[e t]|]; cbn [bind]; auto.
  destruct (force_edges c (s_wl star) (snd e)) as [[tr w]|]; cbn [bind]; auto. destruct (times w (s_data star)) as [f|]; cbn [bind]; auto.
  destruct (times (fst e) (s_data star)) as [x|]; cbn [bind]; auto. destruct (times x tr) as [x2|]; cbn [bind]; auto.
  destruct (times x2 _) as [x3|]; cbn [bind]; auto. destruct (aperture_fraction a) as [fr|]; cbn [bind]; auto. destruct (array_max prf) as [pk|]; cbn [bind]; auto.
  unfold gathered, scaled. cbn. do 2 f_equal. f_equal; f_equal; ring.
Qed.
Lemma spectrometer_area k c pw pd gain star sky : 0 <= k -> propagate_spectrometer (wide k c) pw pd gain star sky = match propagate_spectrometer c pw pd gain star sky with Ok (o, t) => Ok (gathered k o, t) | Err e => Err e end.
Proof.
  intros K. unfold propagate_spectrometer. change (get_efficiency (wide k c)) with (get_efficiency c). change (force_edges (wide k c)) with (force_edges c). cbn [wide c_area c_bins]. destruct (get_efficiency c (s_wl star) sky) as [[e t]|]; cbn [bind]; auto.
  destruct (force_edges c (s_wl star) (snd e)) as [[tr w]|]; cbn [bind]; auto. rewrite scaled_scaled, times_scale_l. destruct (times (scaled (c_area c) tr) (fst e)) as [x|]; cbn [bind]; auto.
  rewrite times_scale_l. destruct (times x (s_data star)) as [x2|]; cbn [bind]; auto. rewrite times_scale_l. destruct (times x2 _) as [dens|]; cbn [bind]; auto.
  destruct (times w (s_data star)) as [f|]; cbn [bind]; auto. destruct (mapM _ _) as [flux|]; cbn [bind]; auto.
  rewrite (mapM_scale k (fun m => let* y := times dens m in Ok (trapz (s_wl star) y))).
  2:{ intros m _. rewrite times_scale_l. destruct (times dens m); cbn [bind]; auto. now rewrite trapz_scale. }
  destruct (mapM _ _) as [sg|]; cbn [bind]; auto. rewrite resample_scale. destruct (resample pw _) as [d|]; cbn [bind s_data]; auto. destruct (mapM gain pw) as [gs|]; cbn [bind]; auto.
  rewrite times_scale_l. destruct (times (s_data d) pd) as [x3|]; cbn [bind]; auto. rewrite times_scale_l. destruct (times x3 gs) as [ip|]; cbn [bind]; auto.
  rewrite (mapM_scale k (fun b => array_max (map snd (filter (fun p => in_pixel_bin b (fst p)) (combine pw ip))))).
  - destruct (mapM _ _) as [mx|]; cbn [bind]; auto.
  - intros b _. rewrite <- array_max_scale by auto. f_equal. unfold scaled. clear. revert ip. induction pw as [|p pw IH]; intros [|i ip]; cbn; auto. destruct (in_pixel_bin b p); cbn; rewrite IH; auto.
Qed.
Lemma star_area k c col sed sky : 0 <= k -> propagate_star (widen k c) col sed sky = match propagate_star c col sed sky with Ok (o, t) => Ok (gathered k o, t) | Err e => Err e end.
Proof.
  intros K. unfold propagate_star. cbn [widen h_star h_kind]. change (with_sky (wide k (h_star c)) col) with (wide k (with_sky (h_star c) col)). destruct (h_kind c); [apply photometer_area|now apply spectrometer_area].
Qed.
Lemma area_names q o : names (star_columns (gathered q o)) = names (star_columns o).
Proof. unfold star_columns, names. cbn. now destruct (o_sky o). Qed.

Lemma own_area ns fs sed sky q name c o : 0 <= q -> as_built ns (name, c) -> own (Some fs) sed sky (name, c) = Ok o -> exists o', own (Some fs) sed sky (name, widen q c) = Ok o' /\ names o' = names o /\
  (forall k, photon_column k -> exists v, sget k o = Some (reals v) /\ sget k o' = Some (reals (scaled q v))) /\ (forall k, ~ photon_column k -> sget k o' = sget k o).
Proof.
  intros Q AB E. unfold own in *. cbn [snd] in *. change (foreground_of (Some fs) (widen q c)) with (foreground_of (Some fs) c). destruct (foreground_of (Some fs) c) as [f|]; cbn [bind] in *; [|discriminate]. unfold own_star in *. rewrite star_area by auto.
  destruct (propagate_star c None sed sky) as [[so t]|]; cbn [bind] in *; [|discriminate]. eexists. split; [reflexivity|]. injection E as <-. change (base (name, widen q c)) with (base (name, c)).
  set (A := override (base (name, c)) f). assert (NK : names (keep (loud sky) (star_columns (gathered q so))) = names (keep (loud sky) (star_columns so))).
  { rewrite !names_keep. now rewrite area_names. }
  assert (MK : forall k, smem k (keep (loud sky) (star_columns (gathered q so))) = smem k (keep (loud sky) (star_columns so))).
  { intros k. apply Bool.eq_iff_eq_true. rewrite !smem_names, NK. tauto. }
  split; [|split].
  - rewrite !override_names, NK. f_equal. apply filter_ext. intros k. now rewrite MK.
  - intros k SK. rewrite !override_get, !keep_get. unfold photon_column in SK. cbn [In] in SK.
    assert (L : loud sky k = true). { unfold loud. repeat (destruct SK as [<-|SK]; [destruct sky; reflexivity|]). destruct SK. }
    rewrite L. cbn [andb]. repeat (destruct SK as [<-|SK]; [unfold star_columns; cbn [gathered o_sky o_flux o_signal o_aperture o_max]; destruct (o_sky so); cbn; eexists; split; reflexivity|]). destruct SK.
  - intros k SK. rewrite !override_get, !keep_get. destruct (loud sky k); auto. cbn [andb]. enough (sget k (star_columns (gathered q so)) = sget k (star_columns so)) as -> by reflexivity.
    unfold star_columns. cbn [gathered o_sky o_flux]. unfold photon_column in SK. cbn [In] in SK.
    destruct (o_sky so); cbn [app dget]; repeat match goal with |- context [String.eqb k ?a] => destruct (String.eqb_spec k a); [try reflexivity; exfalso; apply SK; subst; cbn; auto|] end; reflexivity.
Qed.

(** ** Building with another area *)
Definition lifted (k : R) (r : option (res chan)) : option (res chan) := match r with Some (Ok c) => Some (Ok (widen k c)) | x => x end.
Lemma path_area w p d q k A : has_area p A -> build_optical_path w (with_area p (k * A)) d q = match build_optical_path w p d q with Ok c => Ok (widen k c) | Err e => Err e end.
Proof.
  intros (o & PO & EA). unfold build_optical_path. destruct (optical_grid w d) as [wl|]; cbn [bind]; auto. assert (OP : optical_path wl (with_area p (k * A)) d = optical_path wl p d) by (unfold optical_path, with_area; rewrite PO; reflexivity). rewrite OP.
  destruct (optical_path wl p d) as [els|]; cbn [bind]; auto. destruct (col _ _) as [total|]; cbn [bind]; auto. unfold with_area. cbn [p_optics p_custom]. rewrite PO. cbn [o_force o_area].
  destruct (get_transmission_column _ _ _ _ _) as [[tc tr]|]; cbn [bind]; auto. destruct (chain planck wl els) as [[rads slit]|]; cbn [bind]; auto. destruct (lookup (d_fx d)) as [fx|]; cbn [bind]; auto.
  destruct (compute_signal _ _ _ _) as [em|]; cbn [bind]; auto. unfold widen, wide. cbn. now rewrite EA.
Qed.
Lemma instrument_area w fuel type name p d k A : has_area p A -> build_instrument w fuel type name d (with_area p (k * A)) = lifted k (build_instrument w fuel type name d p).
Proof.
  intros H. unfold build_instrument. destruct (class_named type) as [cl|]; [|reflexivity]. unfold build. set (b := match cl with Photometer => _ | Spectrometer => _ end). destruct b as [[q|e]|]; cbn [andthen]; auto. rewrite (path_area _ _ _ _ _ _ H). destruct (build_optical_path w p d q); reflexivity.
Qed.
Definition widened (k : R) (chs : channels) : channels := map (fun a => (fst a, widen k (snd a))) chs.
Lemma channels_area w fuel p k A chs : has_area p A -> build_channels w fuel p = Some (Ok chs) -> build_channels w fuel (with_area p (k * A)) = Some (Ok (widened k chs)).
Proof.
  intros H. unfold build_channels. change (p_channel (with_area p (k * A))) with (p_channel p). destruct (p_channel p) as [[l|d]|]; [|destruct (d_class d) as [cl|]; [destruct (d_name d) as [nm|]|]; try discriminate|discriminate].
  - revert chs. induction l as [|[name d] l IH]; intros chs E; cbn [build_all] in *; [injection E as <-; reflexivity|].
    assert (BO : build_one w fuel (with_area p (k * A)) name d = lifted k (build_one w fuel p name d)). { unfold build_one. destruct (d_class d); [now apply instrument_area|reflexivity]. }
    rewrite BO. destruct (build_one w fuel p name d) as [[c|]|]; cbn [andthen lifted] in *; try discriminate. destruct (build_all w fuel p l) as [[cs|]|]; cbn [andthen] in *; try discriminate. injection E as <-. rewrite (IH cs eq_refl). reflexivity.
  - rewrite (instrument_area _ _ _ _ _ _ _ _ H). destruct (build_instrument _ _ _ _ _ _) as [[c|]|]; cbn [andthen lifted] in *; try discriminate. intros [= <-]. reflexivity.
Qed.

Lemma slit_area p A d v : has_slit (with_area p A) d v <-> has_slit p d v.
Proof. unfold has_slit, with_area. cbn [p_optics]. destruct (p_optics p); cbn; tauto. Qed.
Lemma common_area w p A k name d : has_area p A -> 0 < k -> complete_common w p name d -> complete_common w (with_area p (k * A)) name d.
Proof.
  intros (o & PO & EA) K (H1 & H2 & H3 & H4 & H5 & H6 & (o' & own & force & E1 & E2 & E3 & E4 & E5 & E6) & H8). do 6 (split; [assumption|]). split; [|exact H8].
  rewrite PO in E1. injection E1 as <-. exists {| o_elements := o_elements o; o_force := o_force o; o_area := k * A |}, own, force. unfold with_area. cbn [p_optics o_force o_area o_elements]. rewrite PO. split; [reflexivity|]. split; [auto|]. split; [auto|]. split; [|auto]. rewrite EA in E4. nra.
Qed.
Lemma mission_area w fuel p l s x f src A k : mission w fuel p l s x f src -> has_area p A -> 0 < k -> mission w fuel (with_area p (k * A)) l s x f src.
Proof.
  intros (H1 & H2 & H3 & H4 & H5 & H6) HA K. unfold mission. cbn [with_area p_channel p_custom]. do 4 (split; [assumption|]). split; [|exact H6].
  intros name d I. destruct (H5 name d I) as [C|C]; [left|right].
  - destruct C as (C1 & C2 & C3 & C4). split; [eapply common_area; eauto|]. split; [auto|]. split; [intros v; rewrite slit_area; auto|exact C4].
  - destruct C as (C1 & C2 & C3 & C4 & ss & e & bins & wls & gg & D1 & D2 & D). split; [eapply common_area; eauto|]. split; [exact C2|]. split; [exact C3|]. split; [exact C4|]. exists ss, e, bins, wls, gg. split; [exact D1|]. split; [exact D2|].
    cbv zeta in *. destruct D as (E1 & E2 & E3 & E4 & E5 & E6 & E7 & E8 & E9). do 8 (split; [assumption|]). intros v V. exact (E9 v (proj1 (slit_area _ _ _ _) V)).
Qed.

(** ** C117: the area of the telescope *)
(** The estimate [y'] of a telescope of [k] times the area of that of [y] *)
Definition as_large (k : R) (chs : channels) (y y' : target) : Prop :=
  exists T T', x_table y = Some T /\ x_table y' = Some T' /\
  forall name c, In (name, c) chs ->
    (forall m, photon_column m -> exists v, shows (cols T) name m (reals v) /\ shows (cols T') name m (reals (map (fun a => a * k) v))) /\
    (forall m v, ordinary m -> fresh_column y m -> m <> "MaxSignal_inPixel"%string -> ~ photon_column m -> shows (cols T') name m v <-> shows (cols T) name m v) /\
    exists z z', shows (cols T) name "total_noise" (map Num z) /\ shows (cols T') name "total_noise" (map Num z') /\ (k <= 1 -> Forall2 no_better z z') /\ (1 <= k -> Forall2 no_better z' z).
Theorem C117_area : forall w fuel p l s x f src h h' A k, mission w fuel p l s x f src -> has_area p A -> 0 < k ->
  Forall (fun sx => no_instrument_in_the_sky (fst sx) (snd sx)) h -> Forall (fun sx => no_instrument_in_the_sky (fst sx) (snd sx)) h' ->
  exists chs chs' y y', build_channels w fuel p = Some (Ok chs) /\ build_channels w fuel (with_area p (k * A)) = Some (Ok chs') /\
    snd (observe_target s (after chs h) x) = Ok y /\ snd (observe_target s (after chs' h') x) = Ok y' /\ as_large k chs y y'.
Proof.
  intros w fuel p l s x f src h h' A k M HA K AH AH'. pose proof (mission_area _ _ _ _ _ _ _ _ A k M HA K) as M'.
  destruct (mission_ready _ _ _ _ _ _ _ _ M) as (chs & st & g & fs & B & I & HN & LD & FG & GF & US). destruct (mission_ready _ _ _ _ _ _ _ _ M') as (chs' & st' & g' & fs' & B' & I' & _ & LD' & FG' & GF' & US').
  pose proof (channels_area w fuel p k A chs HA B) as BB. assert (chs' = widened k chs) as -> by congruence.
  rewrite LD in LD'. injection LD' as <-. rewrite FG in FG'. injection FG' as <-. rewrite GF in GF'. injection GF' as <-.
  assert (N1 : ~ In "MaxSignal_inPixel"%string channel_columns) by (cbn; intuition discriminate). assert (N2 : In "Wavelength"%string channel_columns) by (cbn; auto). assert (N3 : In "WindowSize"%string channel_columns) by (cbn; auto 10).
  destruct (observed_rows channel_columns chs h s x g fs st I channel_columns_quiet N1 N2 N3 (skies_apart chs h AH) (mission_apart _ _ _ _ _ _ _ _ chs M) FG GF LD US) as (y & T & O & XT & XS & V).
  destruct (observed_rows channel_columns (widened k chs) h' s x g fs st I' channel_columns_quiet N1 N2 N3 (skies_apart _ h' AH') (mission_apart _ _ _ _ _ _ _ _ _ M') FG GF LD US') as (y' & T' & O' & XT' & XS' & V').
  exists chs, (widened k chs), y, y'. split; [auto|]. split; [auto|]. split; [auto|]. split; [auto|]. exists T, T'. split; [auto|]. split; [auto|]. intros name c IC.
  assert (AB : as_built channel_columns (name, c)) by (destruct I as (_ & _ & _ & _ & _ & AB); rewrite Forall_forall in AB; auto).
  assert (IC' : In (name, widen k c) (widened k chs)) by (unfold widened; apply (in_map (fun a => (fst a, widen k (snd a))) chs (name, c) IC)).
  destruct (US name c IC) as (_ & _ & dd & so & t0 & _ & _ & UO). pose proof UO as ((det & DE & PH) & _).
  destruct (V name c det IC DE PH) as (o & tf & total & SR). destruct (V' name (widen k c) det IC' DE PH) as (o' & tf' & total' & SR').
  destruct (own_area channel_columns fs (st_sed st) (g_sky g) k name c o ltac:(lra) AB (sr_own _ _ _ _ _ _ _ _ _ _ _ _ SR)) as (o2 & OW & NS & PC & OT). assert (o2 = o') as -> by (pose proof (sr_own _ _ _ _ _ _ _ _ _ _ _ _ SR'); congruence).
  assert (SC : forall m, photon_column m -> ordinary m /\ m <> "MaxSignal_inPixel"%string /\ loud (g_sky g) m = true).
  { intros m J. unfold photon_column in J. cbn in J. repeat (destruct J as [<-|J]; [split; [apply ordinary_end; try reflexivity; discriminate|split; [discriminate|destruct (g_sky g); reflexivity]]|]). destruct J. }
  split; [|split].
  - intros m J. destruct (SC m J) as (Q1 & Q2 & Q3). destruct (PC m J) as (v & G1 & G2). exists v. split; [now apply (sr_shows _ _ _ _ _ _ _ _ _ _ _ _ SR)|now apply (sr_shows _ _ _ _ _ _ _ _ _ _ _ _ SR')].
  - intros m v OM FR NT NP. apply fresh_loud in FR. rewrite XS in FR. rewrite (sr_shows _ _ _ _ _ _ _ _ _ _ _ _ SR), (sr_shows _ _ _ _ _ _ _ _ _ _ _ _ SR'), OT by auto. tauto.
  - assert (FX : M_Noise.fixed_frame_time (h_noise c) <> None). { destruct (HN name c IC) as (d & ID & ->). destruct M as (_ & _ & _ & _ & _ & FF & _). destruct (FF name d ID) as (r & -> & _). discriminate. }
    assert (VAL : forall m, (photon_column m /\ forall i, value_at o' m i = k * value_at o m i) \/ (~ photon_column m /\ forall i, value_at o' m i = value_at o m i)).
    { intros m. destruct (in_dec string_dec m ["starSignal"; "star_signal_inAperture"; "star_MaxSignal_inPixel"]%string) as [J|J]; [left|right]; (split; [exact J|]).
      - destruct (PC m J) as (v & G1 & G2). eapply value_star; eauto.
      - intros i. unfold value_at, col_of. now rewrite OT. }
    assert (WI : In "WindowSize"%string (names o)) by now apply (sr_base _ _ _ _ _ _ _ _ _ _ _ _ SR).
    assert (SI : In "star_signal_inAperture"%string (names o)). { destruct (PC "star_signal_inAperture"%string) as (v & G & _); [cbn; auto|]. apply sget_names. eauto. }
    assert (EW : forall i, value_at o' "WindowSize" i = value_at o "WindowSize" i) by (destruct (VAL "WindowSize"%string) as [[N _]|[_ E]]; [exfalso; cbn in N; intuition discriminate|exact E]).
    assert (ES : forall i, value_at o' "star_signal_inAperture" i = k * value_at o "star_signal_inAperture" i) by (destruct (VAL "star_signal_inAperture"%string) as [[_ E]|[N _]]; [exact E|exfalso; apply N; cbn; auto]).
    assert (IK : 0 < / k) by now apply Rinv_0_lt_compat.
    destruct (Rle_lt_dec k 1) as [L|L].
    + destruct (noisier_rows _ _ _ _ _ _ _ _ _ _ _ _ _ _ _ _ _ _ _ _ _ _ SR SR' eq_refl eq_refl eq_refl NS WI SI k (conj K L) FX (fun i _ => EW i)) as (z & z' & Z1 & Z2 & Z3).
      * intros m i J S L'. pose proof (sr_pos _ _ _ _ _ _ _ _ _ _ _ _ SR m i J (or_introl S) L'). destruct (VAL m) as [[_ E]|[_ E]]; rewrite E; nra.
      * intros i _. apply ES.
      * exists z, z'. split; [auto|]. split; [auto|]. split; [auto|]. intros L'. assert (k = 1) by lra. subst k.
        destruct (noisier_rows _ _ _ _ _ _ _ _ _ _ _ _ _ _ _ _ _ _ _ _ _ _ SR' SR eq_refl eq_refl eq_refl (eq_sym NS)) with (q := 1) as (u & u' & U1 & U2 & U3); try lra.
        { now rewrite NS. } { now rewrite NS. } { exact FX. } { intros i _. now rewrite EW. }
        { intros m i J S LL. destruct (VAL m) as [[_ E]|[_ E]]; rewrite E; lra. } { intros i _. rewrite ES. ring. }
        assert (INJ : forall a b : list xr, map Num a = map Num b -> a = b). { clear. induction a as [|v a IH]; intros [|v' b]; cbn; try discriminate; auto. intros [= -> E]. f_equal. auto. }
        pose proof (INJ _ _ (shows_fun _ _ _ _ _ Z1 U2)) as W1. pose proof (INJ _ _ (shows_fun _ _ _ _ _ Z2 U1)) as W2. now subst.
    + assert (LI : / k <= 1). { rewrite <- Rinv_1. apply Rinv_le_contravar; lra. }
      destruct (noisier_rows _ _ _ _ _ _ _ _ _ _ _ _ _ _ _ _ _ _ _ _ _ _ SR' SR eq_refl eq_refl eq_refl (eq_sym NS)) with (q := / k) as (u & u' & U1 & U2 & U3); auto.
      { now rewrite NS. } { now rewrite NS. }
      { intros m i J S LL. pose proof (sr_pos _ _ _ _ _ _ _ _ _ _ _ _ SR' m i J (or_introl S) LL) as P0. destruct (VAL m) as [[_ E]|[_ E]]; rewrite E in *; [rewrite <- Rmult_assoc, Rinv_l by lra; lra|]. rewrite <- (Rmult_1_l (value_at o m i)) at 2. apply Rmult_le_compat_r; auto. }
      { intros i _. rewrite ES. rewrite <- Rmult_assoc, Rinv_l by lra. ring. }
      exists u', u. split; [auto|]. split; [auto|]. split; [intros; lra|auto].
Qed.
Print Assumptions C117_area.
(** A telescope with a photometer and a spectrometer, and one of half its area, looking at Vega *)
Example C117_ex fuel h : Forall (fun sx => sx = (run, vega)) h -> forall A, has_area telescope A ->
  exists chs chs' y y' T T' v, build_channels sharp fuel telescope = Some (Ok chs) /\ build_channels sharp fuel (with_area telescope (/ 2 * A)) = Some (Ok chs') /\
  snd (observe_target run (after chs h) vega) = Ok y /\ snd (observe_target run (after chs' []) vega) = Ok y' /\
  x_table y = Some T /\ x_table y' = Some T' /\ shows (cols T) "spec" "star_signal_inAperture" (reals v) /\ shows (cols T') "spec" "star_signal_inAperture" (reals (map (fun a => a * / 2) v)).
Proof.
  intros H A HA. destruct (C117_area sharp fuel telescope _ run vega _ _ h [] A (/ 2) (vega_mission fuel) HA ltac:(lra) (sky_known _ H) (Forall_nil _)) as (chs & chs' & y & y' & B & B1 & O & O' & T & T' & XT & XT' & X).
  destruct (a_telescope fuel) as (a & b & B' & _). assert (chs = [("phot"%string, a); ("spec"%string, b)]) as -> by congruence.
  destruct (X "spec"%string b) as (X1 & _); [right; now left|]. destruct (X1 "star_signal_inAperture"%string) as (v & V1 & V2); [cbn; auto|].
  eexists _, chs', y, y', T, T', v. split; [exact B|]. repeat (split; [assumption|]). assumption.
Qed.
