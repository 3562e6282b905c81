(** Automatic frame times, for a payload that is built; where light is counted there are numbers (C125). *)
From Coq Require Import Reals Lra Psatz Lia.
From Verif Require Import Base Dict PyStr XR M_Signal M_Optics M_Light M_Bins M_Psf M_Omega M_Star M_Source M_Foreground S_Signal S_Optics S_Light S_Bins S_Star S_Success S_Foreground L_Signal L_Optics L_Light L_Bins P_Optics P_Bins P_Windows P_Light P_Success P_Omega P_Star P_Source P_Foreground.
From Verif Require M_Noise P_Noise L_Foreground S_Source P_Star.
From Verif Require Import S_Noise L_Noise.
From Verif Require Import M_Table L_Table P_Table M_Observe S_Observe L_Observe L_Stages L_Outcome S_Works S_Complete P_Observe P_Outcome P_Works P_Complete P_Instance M_Build S_Build S_Ready L_Build L_Ready P_Build P_Ready P_Mission P_Telescope S_Full P_Full S_Bright L_Bright P_Bright P_BrightMission L_Compare S_Seen L_Seen.
Open Scope list_scope.
Open Scope R_scope.

(** A payload described completely, observing a known star as a black body: every channel has a frame
    time, or clear optics and sees the star. *)
Definition seeing_mission (w : outer) (fuel : nat) (p : payload) (l : list (string * description)) (s : setting) (x : target) (f : foregrounds_descr) (src : source_arg) : Prop :=
  p_channel p = Some (Ordered l) /\ l <> [] /\ named l /\ (forall name d r, In (name, d) l -> d_targetR d = Some (FixedR r) -> 0 < r) /\
  (forall name d, In (name, d) l -> complete_photometer w fuel p name d \/ complete_spectrometer w fuel p name d) /\
  (forall name d wl, In (name, d) l -> geometric_grid (value (y_min s)) (value (y_max s)) (y_R s) wl ->
     (exists r, M_Noise.fixed_frame_time (d_detector d) = Some (Fin r) /\ 0 < r) \/ (M_Noise.fixed_frame_time (d_detector d) = None /\ clear_optics p d /\ sees w fuel name d wl)) /\
  (forall name d wl, In (name, d) l -> geometric_grid (value (y_min s)) (value (y_max s)) (y_R s) wl -> in_range w name d wl) /\
  Forall valid_entry (entries (p_custom p)) /\ (forall name d, In (name, d) l -> Forall valid_entry (entries (M_Noise.ch_custom (d_detector d)))) /\
  in_um (y_min s) = Some 1 /\ in_um (y_max s) = Some 1 /\ 0 < value (y_min s) < value (y_max s) /\ (2 <= y_R s)%nat /\
  y_foreground s = Some f /\ sensible_foregrounds f /\ g_sky (x_sky x) = None /\ g_foreground (x_sky x) = None /\ located (x_sky x) /\
  y_source s = Some src /\ black_body src /\ known_star (x_stellar x) /\ x_star_name x <> None /\ no_instrument_in_the_sky s x /\ sky_open s x.
Definition builder_of (w : outer) (fuel : nat) (name : string) (d : description) (k : instrument_class) : option (res parts) :=
  match k with Photometer => photometer_builder w fuel name d [] | Spectrometer => spectrometer_builder w fuel name d [] end.
Lemma seeing_ready w fuel p l s x f src : seeing_mission w fuel p l s x f src -> exists chs st g fs, build_channels w fuel p = Some (Ok chs) /\ instruments channel_columns chs /\
  load s x = Ok st /\ foregrounds_of s (x_sky x) = Ok g /\ g_foreground g = Some fs /\
  source_ (st_sed st) /\ nonneg (s_data (st_sed st)) /\ bright_inside (st_sed st) /\ sky_on (st_sed st) (g_sky g) /\ physical_sky (g_sky g) /\ open_sky (g_sky g) /\ geometric_grid (value (y_min s)) (value (y_max s)) (y_R s) (s_wl (st_sed st)) /\
  (forall name c, In (name, c) chs -> exists d q k, In (name, d) l /\ class_named (py_lower (match d_class d with Some s => s | None => EmptyString end)) = Some k /\ builder_of w fuel name d k = Some (Ok q) /\ build_optical_path w p d q = Ok c /\ h_noise c = d_detector d /\ works_at (s_wl (st_sed st)) c) /\
  forall name c, In (name, c) chs -> Forall valid_entry (entries (h_common c)) /\ Forall valid_entry (entries (M_Noise.ch_custom (h_noise c))) /\
     exists d o t, propagate_diffuse_foreground (h_light c) (M_Observe.edges c) (Some fs) = Ok d /\ propagate_star c None (st_sed st) (g_sky g) = Ok (o, t) /\ usable c d o.
Proof.
  intros (C & NE & NM & RP & CO & FF & IR & VP & VD & U1 & U2 & V & N & YF & SF & GS & GF & LO & YS & BB & KS & SN & NX & OSK).
  destruct (C96_complete_payload_builds w fuel p l C NE NM RP CO) as (chs & B & I & F). pose proof NM as [NDL _].
  assert (BU : forall name c, In (name, c) chs -> exists d q k, In (name, d) l /\ class_named (py_lower (match d_class d with Some s => s | None => EmptyString end)) = Some k /\ builder_of w fuel name d k = Some (Ok q) /\ shaped name q /\ build_optical_path w p d q = Ok c /\ complete_common w p name d /\
            h_noise c = d_detector d /\ forall wl, in_range w name d wl -> works_at wl c).
  { intros name c IC. destruct (built_from _ _ _ _ _ _ _ C B IC) as (d & ID & BO). pose proof BO as BO'. apply built_inv in BO as (k & q & CN & _ & BQ & O). exists d, q, k.
    assert (GD : sget name l = Some d) by (apply NoDup_In_dget; auto; apply String_eqb_spec).
    split; auto. split; auto. split; auto. split; [destruct k; [destruct (photometer_shaped _ _ _ _ _ BQ)|destruct (spectrometer_shaped _ _ _ _ _ BQ)]; auto|]. split; auto.
    split; [destruct (CO name d ID) as [X|X]; apply X|].
    assert (X : exists d', In (name, d') l /\ h_noise c = d_detector d' /\ forall wl, in_range w name d' wl -> works_at wl c).
    { clear -F IC. induction F as [|[n d] [n' c'] l chs (E & HN & W) F IH]; [destruct IC|]. cbn in E, HN, W. destruct IC as [IC|IC].
      - injection IC as -> ->. subst. exists d. split; [now left|auto].
      - destruct (IH IC) as (d' & ID' & X). exists d'. split; [now right|auto]. }
    destruct X as (d' & ID' & X). assert (GD' : sget name l = Some d') by (apply NoDup_In_dget; auto; apply String_eqb_spec). assert (d' = d) as -> by congruence. exact X. }
  assert (WGr : working_grid (y_R s) (y_min s) (y_max s) = Ok (logspace (value (y_min s)) (value (y_max s)) (y_R s))) by (unfold working_grid, um_of; rewrite U1, U2, !Rmult_1_r; reflexivity).
  destruct (black_body_loads s x src U1 U2 V N YS BB KS SN) as (st & LD & NS & EW).
  destruct (foregrounds_clear (y_maps s) (y_R s) (y_min s) (y_max s) _ f (x_sky x) WGr) as (g & EG & (_ & C1 & C2) & fs & G & NF); auto.
  { intros w0 I0. unfold logspace in I0. apply in_map_iff in I0 as (k & <- & _). apply Rmult_lt_0_compat; [lra|]. unfold Rpower. apply exp_pos. }
  { split; auto. rewrite GS, GF. split; discriminate. }
  assert (FG : foregrounds_of s (x_sky x) = Ok g) by (unfold foregrounds_of; rewrite YF; exact EG).
  assert (GG : geometric_grid (value (y_min s)) (value (y_max s)) (y_R s) (s_wl (st_sed st))). { rewrite EW. pose proof (L_Foreground.grid_spec _ _ _ _ WGr) as GG. unfold S_Source.microns in GG. rewrite U1, U2, !Rmult_1_r in GG. exact GG. }
  assert (WK : forall name c, In (name, c) chs -> works_at (s_wl (st_sed st)) c). { intros name c IC. destruct (BU name c IC) as (d & q & k & ID & _ & _ & _ & _ & _ & _ & W). apply W. now apply IR. }
  assert (NBC : forall name c, In (name, c) chs -> c_bins (h_star c) <> []). { intros name c IC. assert (AB : as_built channel_columns (name, c)) by (destruct I as (_ & _ & _ & _ & _ & AB); rewrite Forall_forall in AB; auto). destruct AB as (NB & _). destruct (c_bins (h_star c)); [cbn in NB; lia|discriminate]. }
  destruct (same_grid s x st g U1 U2 V N ltac:(congruence) GS LD FG) as (SO & SK & GR). specialize (GR GF fs G).
  assert (PSK : physical_sky (g_sky g)). { unfold physical_sky. destruct (g_sky g) as [sk|]; auto. now destruct (C1 sk eq_refl). }
  assert (OS : open_sky (g_sky g)). { unfold open_sky. destruct (g_sky g) as [sk|] eqn:Eg; auto. intros v Iv. eapply OSK; eauto. }
  pose proof (black_body_bright s x src st U1 U2 V N YS BB KS LD) as BI.
  exists chs, st, g, fs. repeat (split; [assumption|]). split.
  { intros name c IC. destruct (BU name c IC) as (d & q & k & ID & X1 & X2 & _ & X3 & _ & X4 & _). exists d, q, k. repeat (split; [assumption|]). now apply (WK name). }
  intros name c IC. destruct (BU name c IC) as (d & q & k & ID & CN & BQ & SH & O & CC & HN & _). split; [|split].
  - destruct (path_inv _ _ _ _ _ O) as (? & ? & ? & ? & ? & ? & ? & ? & _ & _ & _ & _ & _ & _ & _ & _ & _ & _ & _ & HC & _). rewrite HC. exact VP.
  - rewrite HN. eapply VD; eauto.
  - pose proof (WK name c IC) as WA. pose proof WA as (SD & DL & SL).
    destruct (star_goes_through c _ _ SO SK PSK NS SL) as (o & t & EO & NO).
    destruct (diffuse_goes_through (h_light c) (M_Observe.edges c) (s_wl (st_sed st)) fs) as (dd & ED & ND); auto.
    + apply SO.
    + unfold M_Observe.edges. specialize (NBC name c IC). destruct (c_bins (h_star c)); [congruence|discriminate].
    + intros k0 f0 J. destruct (GR k0 f0 J). eauto.
    + exists dd, o, t. split; auto. split; auto. destruct SD as [SD1 SD2]. split; auto. split; [exact SD2|]. split; [exact ND|]. split; [exact NO|]. rewrite HN. destruct (FF name d _ ID GG) as [(r & -> & RP')|(-> & CL & S1 & S2)]; [eauto|].
      destruct (CO name d ID) as [CP|CS].
      * destruct CP as (_ & (cl & DC & LC) & _). rewrite DC, LC in CN. cbn in CN. injection CN as <-. destruct (photometer_lit w fuel p name d q c _ _ o t CC CL BQ O WA SO NS BI SK PSK OS EO) as (v & m & fr & _ & -> & _ & _ & _ & PM). exists m. split; [now left|]. apply PM. eapply S1; eauto.
      * pose proof CS as (_ & (cl & DC & LC) & _). rewrite DC, LC in CN. cbn in CN. injection CN as <-. destruct (spectrometer_lit w fuel p name d q c _ _ o t CS CL BQ O WA SO NS BI SK PSK OS EO) as (_ & _ & X). apply X. eapply S2; eauto.
Qed.

Lemma channel_of w fuel p l chs name d : p_channel p = Some (Ordered l) -> build_channels w fuel p = Some (Ok chs) -> In (name, d) l -> exists c, In (name, c) chs.
Proof.
  intros C E I. pose proof (built_pairs _ _ _ _ _ C E) as F. clear -F I. induction F as [|[n d'] [n' c'] l' chs' [E B] F IH]; [destruct I|]. cbn in E. destruct I as [I|I].
  - injection I as -> ->. subst. exists c'. now left.
  - destruct (IH I) as (c & J). exists c. now right.
Qed.
Lemma one_description (l : list (string * description)) name d d' : NoDup (map fst l) -> In (name, d) l -> In (name, d') l -> d = d'.
Proof. intros ND I I'. assert (sget name l = Some d) by (apply NoDup_In_dget; auto; apply String_eqb_spec). assert (sget name l = Some d') by (apply NoDup_In_dget; auto; apply String_eqb_spec). congruence. Qed.
(** Every channel gets a frame time, the same in every row: the fixed one; else the longest with which
    no pixel exceeds the fraction of the well that may be filled, which the fullest one reaches. *)
Theorem C125_automatic_frame_times : forall w fuel p l s x f src h, seeing_mission w fuel p l s x f src -> Forall (fun sx => no_instrument_in_the_sky (fst sx) (snd sx)) h ->
  exists chs y T, build_channels w fuel p = Some (Ok chs) /\ snd (observe_target s (after chs h) x) = Ok y /\ x_table y = Some T /\
  forall name d det, In (name, d) l -> describes (d_detector d) det -> physical det -> exists tf mx, 0 < tf /\ shows (cols T) name "MaxSignal_inPixel" (reals mx) /\ shows (cols T) name "frameTime" (reals (map (fun _ => tf) mx)) /\
    match M_Noise.fixed_frame_time (d_detector d) with
    | Some t => t = Fin tf
    | None => (forall m, In m mx -> m * tf <= d_f det * d_well det) /\ exists m, In m mx /\ m * tf = d_f det * d_well det
    end.
Proof.
  intros w fuel p l s x f src h M AH. destruct (seeing_ready _ _ _ _ _ _ _ _ M) as (chs & st & g & fs & B & I & LD & FG & GF & _ & _ & _ & _ & _ & _ & _ & BU & US).
  assert (AP : columns_apart channel_columns chs s x). { intros _ g0 G0. apply foreign_columns. intros fs' E. eapply M; eauto. }
  assert (N1 : ~ In "MaxSignal_inPixel"%string channel_columns) by (cbn; intuition discriminate). assert (N2 : In "Wavelength"%string channel_columns) by (cbn; auto). assert (N3 : In "WindowSize"%string channel_columns) by (cbn; auto 10).
  destruct (observed_rows channel_columns chs h s x g fs st I channel_columns_quiet N1 N2 N3 (skies_apart chs h AH) AP FG GF LD US) as (y & T & OY & XT & _ & X). exists chs, y, T. split; auto. split; auto. split; auto.
  intros name d det ID DE PH. pose proof M as (C & _ & NM & _). destruct (channel_of _ _ _ _ _ _ _ C B ID) as (c & IC). destruct (BU name c IC) as (d' & q & k & ID' & _ & _ & _ & HN & _).
  assert (d' = d) as -> by (apply (one_description l name); auto; apply NM).
  destruct (X name c det IC) as (o & tf & tot & A); [now rewrite HN|auto|]. exists tf, (map (maxima o) (List.seq 0 (bins_of (name, c)))).
  split; [exact (sr_tf _ _ _ _ _ _ _ _ _ _ _ _ A)|]. split; [rewrite <- numbers_reals; exact (sr_max _ _ _ _ _ _ _ _ _ _ _ _ A)|]. split; [rewrite map_map, <- numbers_reals; exact (sr_frame_shown _ _ _ _ _ _ _ _ _ _ _ _ A)|].
  pose proof (sr_frame _ _ _ _ _ _ _ _ _ _ _ _ A) as FR. rewrite HN in FR. destruct (M_Noise.fixed_frame_time (d_detector d)); auto. destruct FR as (_ & F1 & i & Li & F2). split.
  - intros m J. apply in_map_iff in J as (j & <- & J). apply in_seq in J. apply F1. lia.
  - exists (maxima o i). split; auto. apply in_map. apply in_seq. lia.
Qed.
Print Assumptions C125_automatic_frame_times.

Lemma F2_seq {A B} (P : A -> B -> Prop) l (g : nat -> B) : (forall i a, nth_error l i = Some a -> P a (g i)) -> Forall2 P l (map g (List.seq 0 (length l))).
Proof. revert g. induction l as [|a l IH]; intros g H; cbn; constructor; [apply (H 0%nat); reflexivity|]. rewrite <- seq_shift, map_map. apply IH. intros i b E. apply (H (S i)). exact E. Qed.
(** The noise is a number in every bin in which light is counted. *)
Theorem C125_noise_where_light_is_counted : forall w fuel p l s x f src h, seeing_mission w fuel p l s x f src -> Forall (fun sx => no_instrument_in_the_sky (fst sx) (snd sx)) h ->
  exists chs y T, build_channels w fuel p = Some (Ok chs) /\ snd (observe_target s (after chs h) x) = Ok y /\ x_table y = Some T /\
  forall name d c, In (name, d) l -> In (name, c) chs -> clear_optics p d -> open_aperture d ->
  exists z, shows (cols T) name "total_noise" (map Num z) /\
    Forall2 (fun b v => (forall wl, geometric_grid (value (y_min s)) (value (y_max s)) (y_R s) wl -> exists u, counted_at w name d wl u /\ left_edge b <= u < right_edge b) -> exists r, v = Fin r /\ 0 <= r) (c_bins (h_star c)) z.
Proof.
  intros w fuel p l s x f src h M AH. destruct (seeing_ready _ _ _ _ _ _ _ _ M) as (chs & st & g & fs & B & I & LD & FG & GF & SO & NS & BI & SK & PSK & OS & GG & BU & US).
  assert (AP : columns_apart channel_columns chs s x). { intros _ g0 G0. apply foreign_columns. intros fs' E. eapply M; eauto. }
  assert (N1 : ~ In "MaxSignal_inPixel"%string channel_columns) by (cbn; intuition discriminate). assert (N2 : In "Wavelength"%string channel_columns) by (cbn; auto). assert (N3 : In "WindowSize"%string channel_columns) by (cbn; auto 10).
  destruct (observed_rows channel_columns chs h s x g fs st I channel_columns_quiet N1 N2 N3 (skies_apart chs h AH) AP FG GF LD US) as (y & T & OY & XT & _ & X). exists chs, y, T. split; auto. split; auto. split; auto.
  intros name d c ID IC CL OA. pose proof M as (C & _ & NM & _ & CO & _). destruct (BU name c IC) as (d' & q & k & ID' & CN & BQ & O & HN & WA).
  assert (d' = d) as -> by (apply (one_description l name); auto; apply NM). clear ID'.
  assert (AB : as_built channel_columns (name, c)) by (destruct I as (_ & _ & _ & _ & _ & AB); rewrite Forall_forall in AB; auto).
  pose proof WA as (((det & DE & PH) & _) & _ & _). destruct (X name c det IC DE PH) as (o & tf & tot & A).
  exists (map tot (List.seq 0 (bins_of (name, c)))). split; [rewrite map_map; exact (sr_total_shown _ _ _ _ _ _ _ _ _ _ _ _ A)|]. apply F2_seq. intros i b Eb CB. destruct (CB _ GG) as (u & CU & BU'). clear CB.
  assert (Li : (i < bins_of (name, c))%nat) by (unfold bins_of; cbn [snd] in Eb |- *; apply nth_error_Some; congruence).
  destruct (own_get _ _ _ _ _ _ AB (sr_own _ _ _ _ _ _ _ _ _ _ _ _ A)) as (dd & so & t & _ & ES & OG). cbn [snd] in *.
  assert (AV : value_at o "star_signal_inAperture" i = nth i (o_aperture so) 0 /\ length (o_aperture so) = bins_of (name, c)).
  { assert (GA : sget "star_signal_inAperture" o = Some (map num (o_aperture so))). { rewrite OG. unfold loud. cbn [String.eqb Ascii.eqb Bool.eqb negb andb]. unfold star_columns. destruct (g_sky g), (o_sky so); reflexivity. }
    assert (LA : length (o_aperture so) = bins_of (name, c)). { rewrite <- (map_length num). eapply (sr_rows _ _ _ _ _ _ _ _ _ _ _ _ A). apply sget_In. exact GA. }
    split; auto. unfold value_at, col_of. rewrite GA. rewrite nth_error_map. rewrite (nth_error_nth' _ 0) by lia. reflexivity. }
  destruct AV as [AV LA]. enough (PA : 0 < nth i (o_aperture so) 0) by (eexists; split; [apply (sr_total _ _ _ _ _ _ _ _ _ _ _ _ A i Li); rewrite AV; lra|apply sqrt_pos]).
  pose proof (CO name d ID) as [CP|CS].
  - destruct CP as (CC & (cl & DC & LC) & _ & im & k0 & a & _ & _ & _ & DA & _). rewrite DC, LC in CN. cbn in CN. injection CN as <-. destruct (photometer_lit w fuel p name d q c _ _ so t CC CL BQ O WA SO NS BI SK PSK OS ES) as (v & m & fr & _ & _ & AF & E2 & PV & _).
    rewrite E2 in LA |- *. cbn in LA. rewrite <- LA in Li. assert (i = 0%nat) as -> by lia. cbn [nth]. apply Rmult_lt_0_compat; [apply PV; eauto|]. rewrite DA in AF. cbn in AF. destruct (OA a DA) as [O1 O2]. destruct (a_correction a) as [v1|]; [injection AF as <-; auto|]. destruct (a_ene a) as [v1|]; [injection AF as <-; auto|injection AF as <-; lra].
  - pose proof CS as (_ & (cl & DC & LC) & _). rewrite DC, LC in CN. cbn in CN. injection CN as <-. destruct (spectrometer_lit w fuel p name d q c _ _ so t CS CL BQ O WA SO NS BI SK PSK OS ES) as (E2 & F & _). rewrite E2 in LA |- *.
    assert (Y : forall (P : bin -> R -> Prop) l1 l2 j a, Forall2 P l1 l2 -> nth_error l1 j = Some a -> P a (nth j l2 0)). { clear. intros P l1 l2 j a F. revert j. induction F; intros [|j] E; cbn in *; try discriminate; [congruence|auto]. }
    apply (Y _ _ _ _ _ F Eb). eauto.
Qed.
Print Assumptions C125_noise_where_light_is_counted.

(** A photometer whose frame time is automatic sees the star. *)
Definition auto_detector : M_Noise.channel :=
  {| M_Noise.ch_name := "phot"; M_Noise.well_depth := Fin 100; M_Noise.f_well_depth := Some (Fin (1 / 2)); M_Noise.fixed_frame_time := None;
     M_Noise.freqNDR := Fin 1; M_Noise.multiaccumM := None; M_Noise.dark_current := Fin 1; M_Noise.read_noise := Fin 1; M_Noise.noiseX := None; M_Noise.ch_custom := None |}.
Definition auto_phot : description :=
  {| d_name := Some "phot"%string; d_class := Some "Photometer"%string; d_min := 1; d_max := 2; d_from := um 1; d_to := um 2; d_delta := 10; d_qe := QeValue 0.5;
     d_fx := Some 20; d_fy := Some 20; d_psf := None; d_aperture := Some {| a_radius := Some 2; a_ene := None; a_correction := None |};
     d_solution := None; d_targetR := None; d_wfe := None;
     d_windows := {| k_radius := None; k_scale := None; k_spatial := None; k_spectral := None |}; d_optics := Some NoElement; d_detector := auto_detector |}.
Definition camera : payload :=
  {| p_optics := Some {| o_elements := M_Optics.One mirror; o_force := Some true; o_area := 3 |}; p_custom := None; p_channel := Some (Ordered [("phot"%string, auto_phot)]) |}.
Definition run3 : setting :=
  {| y_world := P_Source.ex_world; y_maps := no_maps; y_R := 3; y_version := "2.1"; y_min := P_Foreground.micron 1; y_max := P_Foreground.micron 2;
     y_foreground := Some (Many [("zodiacal"%string, by_factor 2)]); y_source := Some (SourceName "Planck") |}.
Definition middle : R := 1 * Rpower (2 / 1) (INR 1 / INR (3 - 1)).
Lemma grid_three wl : geometric_grid 1 2 3 wl -> wl = [1; middle; 2].
Proof.
  intros [L G]. destruct wl as [|a [|b [|c [|? ?]]]]; cbn in L; try discriminate. pose proof (G 0%nat ltac:(lia)) as G0. pose proof (G 1%nat ltac:(lia)) as G1. pose proof (G 2%nat ltac:(lia)) as G2. unfold at_ in *. cbn [nth] in *.
  assert (a = 1). { rewrite G0. cbn [INR Nat.sub]. replace (0 / (1 + 1)) with 0 by field. rewrite Rpower_O by lra. lra. } assert (c = 2). { rewrite G2. cbn [INR Nat.sub]. replace ((1 + 1) / (1 + 1)) with 1 by field. rewrite Rpower_1 by lra. field. } rewrite H, H0, G1. reflexivity.
Qed.
Lemma middle_between : 1 < middle < 2.
Proof.
  unfold middle. rewrite Rmult_1_l. replace (2 / 1) with 2 by field. cbn [INR Nat.sub]. replace (1 / (1 + 1)) with (/ 2) by field.
  split; [rewrite <- (Rpower_O 2) at 1 by lra; apply Rpower_lt; lra|]. rewrite <- (Rpower_1 2) at 3 by lra. apply Rpower_lt; lra.
Qed.
Example camera_sees fuel : seeing_mission sharp fuel camera [("phot"%string, auto_phot)] run3 vega (Many [("zodiacal"%string, by_factor 2)]) (SourceName "Planck").
Proof.
  pose proof middle_between as MB.
  assert (GR : forall s x g, s = run3 -> x_sky x = anywhere -> foregrounds_of s (x_sky x) = Ok g -> g_sky g = None /\ exists f, g_foreground g = Some [("zodi"%string, f)]).
  { intros s x g -> -> E. cbn in E. injection E as <-. split; [reflexivity|]. eexists. reflexivity. }
  assert (CC : complete_photometer sharp fuel camera "phot" auto_phot).
  { split; [|split; [exists "Photometer"%string; split; reflexivity|split]].
    - unfold complete_common; cbn [auto_phot d_from d_to d_delta d_min d_max d_optics d_fx d_fy d_qe d_detector].
      split; [reflexivity|]. split; [reflexivity|]. split; [cbn; lra|]. split; [cbn; lia|]. split; [lra|]. split; [lra|]. split; [|split; [|split; [|split]]].
      + do 3 eexists. repeat (split; [reflexivity|]). split; [cbn; lra|]. split; [cbn; intros e ->; apply mirror_sensible|now intros e].
      + exists 20, 20. repeat (split; [reflexivity|]). lra.
      + cbn. lra.
      + reflexivity.
      + exists the_numbers. split; [repeat split; auto|]. unfold S_Noise.physical, the_numbers. cbn. lra.
    - intros v (o & e & [[= ->]|[= ->]] & E & (T & _)); cbn in E; [subst e; discriminate|auto].
    - cbv zeta. exists [[1]], (Some [[1]]), {| a_radius := Some 2; a_ene := None; a_correction := None |}. split; [reflexivity|]. split; [discriminate|]. split; [intros x [<-|[]]; lra|]. split; [reflexivity|].
      split; [discriminate|]. split; [discriminate|]. left. now exists 2. }
  split; [reflexivity|]. split; [discriminate|]. split; [split; [repeat constructor; cbn; intuition discriminate|intros name d [[= <- <-]|[]]; reflexivity]|].
  split; [intros name d r [[= <- <-]|[]]; discriminate|]. split; [intros name d [[= <- <-]|[]]; now left|].
  assert (RE : forall P : R -> Prop, (forall z, 1 <= z <= 2 -> P z) -> reached P (logspace (value (d_from auto_phot)) (value (d_to auto_phot)) (u_R sharp)) [1; middle; 2] middle).
  { intros P HP. cbn [auto_phot d_from d_to um P_Foreground.micron value sharp u_R]. rewrite ex_logspace. exists 1, 2, 1, 2, 1, 2.
    split; [split; [now left|intros y [<-|[<-|[<-|[]]]]; lra]|]. split; [split; [cbn; auto|intros y [<-|[<-|[<-|[]]]]; lra]|]. split; [exists [], [2]; reflexivity|]. split; [exists [1], []; reflexivity|].
    split; [now left|]. split; [cbn; auto|]. split; [lra|]. split; [lra|]. auto. }
  split.
  { intros name d wl [[= <- <-]|[]] G. apply grid_three in G as ->. right. split; [reflexivity|]. split.
    - split; [intros o [= <-]; cbn; lra|]. intros o e [[= ->]|[= ->]] E; cbn in E; [subst e|destruct E]. cbn. split; [intros k v [->| ->]; cbn; [discriminate|intros [= <-]; lra]|]. split; discriminate.
    - split; [|intros k [= <-]; discriminate]. intros k _ _. split.
      + exists middle. split; [apply RE; cbn; auto|cbn; lra].
      + intros im k' [= <- _]. exists [1], 1. cbn. repeat split; auto. lra. }
  split.
  { intros name d wl [[= <- <-]|[]] G. apply grid_three in G as ->. split; [|split; [exact I|discriminate]]. cbn [auto_phot d_from d_to um P_Foreground.micron value sharp u_R]. rewrite ex_logspace. exists 1, 2, 1, 2.
    split; [split; [now left|intros y [<-|[<-|[<-|[]]]]; lra]|]. split; [split; [cbn; auto|intros y [<-|[<-|[<-|[]]]]; lra]|]. cbn. repeat (split; [auto; lra|]). lra. }
  split; [constructor|]. split; [intros name d [[= <- <-]|[]]; constructor|]. split; [reflexivity|]. split; [reflexivity|]. split; [cbn; lra|]. split; [cbn; lia|]. split; [reflexivity|].
  split; [split; [discriminate|]; intros k d [[= <- <-]|[]]; cbn [String.eqb Ascii.eqb Bool.eqb]; split; [discriminate|]; cbn; intros v [= <-]; lra|].
  split; [reflexivity|]. split; [reflexivity|]. split; [intros X; now destruct X|]. split; [reflexivity|]. split; [exists "Planck"%string; split; [reflexivity|split; discriminate]|]. split; [apply vega_known|]. split; [discriminate|]. split.
  - intros g fs E F IN. destruct (GR run3 vega g eq_refl eq_refl E) as (_ & f & F'). rewrite F' in F. injection F as <-. cbn in IN. intuition discriminate.
  - intros g sk v E F. destruct (GR run3 vega g eq_refl eq_refl E) as (Z & _). congruence.
Qed.
(** ... and gets its one frame time from it: with it, the fullest pixel is half full. *)
Example C125_ex fuel : exists chs y T tf, build_channels sharp fuel camera = Some (Ok chs) /\ snd (observe_target run3 chs vega) = Ok y /\ x_table y = Some T /\ 0 < tf /\
  exists mx, shows (cols T) "phot" "frameTime" (reals (map (fun _ => tf) mx)) /\ exists v, In v mx /\ v * tf = 1 / 2 * 100.
Proof.
  destruct (C125_automatic_frame_times _ _ _ _ _ _ _ _ [] (camera_sees fuel) (Forall_nil _)) as (chs & y & T & B & O & XT & X).
  destruct (X "phot"%string auto_phot the_numbers) as (tf & mx & P1 & _ & P3 & _ & P4); [now left|repeat split; auto|unfold S_Noise.physical, the_numbers; cbn; lra|].
  exists chs, y, T, tf. repeat (split; [assumption|]). exists mx. split; auto.
Qed.
