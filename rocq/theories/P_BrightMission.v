(** Nearer and larger stars, for a payload that is built (C115). *)
From Coq Require Import Reals Lra Psatz Lia.
From Verif Require Import Base Dict PyStr XR M_Signal M_Optics M_Light M_Bins M_Psf M_Omega M_Star M_Source M_Foreground S_Signal S_Optics S_Light S_Bins S_Star S_Success S_Foreground L_Signal L_Optics L_Light L_Bins P_Optics P_Bins P_Windows P_Light P_Success P_Omega P_Star P_Source P_Foreground.
From Verif Require M_Noise P_Noise L_Foreground S_Source P_Star.
From Verif Require Import S_Noise L_Noise.
From Verif Require Import M_Table L_Table P_Table M_Observe S_Observe L_Observe L_Stages L_Outcome S_Works S_Complete P_Observe P_Outcome P_Works P_Complete P_Instance M_Build S_Build S_Ready L_Build L_Ready P_Build P_Ready P_Mission P_Telescope S_Full P_Full S_Bright L_Bright P_Bright.
Open Scope list_scope.
Open Scope R_scope.

(** A payload described completely, observing a known star as a black body *)
Definition mission (w : outer) (fuel : nat) (p : payload) (l : list (string * description)) (s : setting) (x : target) (f : foregrounds_descr) (src : source_arg) : Prop :=
  p_channel p = Some (Ordered l) /\ l <> [] /\ named l /\ (forall name d r, In (name, d) l -> d_targetR d = Some (FixedR r) -> 0 < r) /\
  (forall name d, In (name, d) l -> complete_photometer w fuel p name d \/ complete_spectrometer w fuel p name d) /\
  (forall name d, In (name, d) l -> exists r, M_Noise.fixed_frame_time (d_detector d) = Some (Fin r) /\ 0 < r) /\
  (forall name d wl, In (name, d) l -> geometric_grid (value (y_min s)) (value (y_max s)) (y_R s) wl -> in_range w name d wl) /\
  Forall valid_entry (entries (p_custom p)) /\ (forall name d, In (name, d) l -> Forall valid_entry (entries (M_Noise.ch_custom (d_detector d)))) /\
  in_um (y_min s) = Some 1 /\ in_um (y_max s) = Some 1 /\ 0 < value (y_min s) < value (y_max s) /\ (2 <= y_R s)%nat /\
  y_foreground s = Some f /\ sensible_foregrounds f /\ g_sky (x_sky x) = None /\ g_foreground (x_sky x) = None /\ located (x_sky x) /\
  y_source s = Some src /\ black_body src /\ known_star (x_stellar x) /\ x_star_name x <> None /\ no_instrument_in_the_sky s x.
(** Everything is found and nothing fails. *)
Lemma mission_ready w fuel p l s x f src : mission w fuel p l s x f src -> exists chs st g fs, build_channels w fuel p = Some (Ok chs) /\ instruments channel_columns chs /\ (forall name c, In (name, c) chs -> exists d, In (name, d) l /\ h_noise c = d_detector d) /\
  load s x = Ok st /\ foregrounds_of s (x_sky x) = Ok g /\ g_foreground g = Some fs /\
  forall name c, In (name, c) chs -> Forall valid_entry (entries (h_common c)) /\ Forall valid_entry (entries (M_Noise.ch_custom (h_noise c))) /\
     exists d o t, propagate_diffuse_foreground (h_light c) (M_Observe.edges c) (Some fs) = Ok d /\ propagate_star c None (st_sed st) (g_sky g) = Ok (o, t) /\ usable c d o.
Proof.
  intros (C & NE & NM & RP & CO & FF & IR & VP & VD & U1 & U2 & V & N & YF & SF & GS & GF & LO & YS & BB & KS & SN & NX).
  destruct (C96_complete_payload_builds w fuel p l C NE NM RP CO) as (chs & B & I & F). pose proof NM as [NDL _].
  assert (BU : forall name c, In (name, c) chs -> exists d q, In (name, d) l /\ sget name l = Some d /\ shaped name q /\ build_optical_path w p d q = Ok c /\ complete_common w p name d /\
            h_noise c = d_detector d /\ forall wl, in_range w name d wl -> works_at wl c).
  { intros name c IC. destruct (built_from _ _ _ _ _ _ _ C B IC) as (d & ID & BO). pose proof BO as BO'. apply built_inv in BO as (k & q & _ & _ & BQ & O). exists d, q.
    assert (GD : sget name l = Some d) by (apply NoDup_In_dget; auto; apply String_eqb_spec).
    split; auto. split; auto. split; [destruct k; [destruct (photometer_shaped _ _ _ _ _ BQ)|destruct (spectrometer_shaped _ _ _ _ _ BQ)]; auto|]. split; auto.
    split; [destruct (CO name d ID) as [X|X]; apply X|]. 
    assert (X : exists d', In (name, d') l /\ h_noise c = d_detector d' /\ forall wl, in_range w name d' wl -> works_at wl c).
    { clear -F IC. induction F as [|[n d] [n' c'] l chs (E & HN & W) F IH]; [destruct IC|]. cbn in E, HN, W. destruct IC as [IC|IC].
      - injection IC as -> ->. subst. exists d. split; [now left|auto].
      - destruct (IH IC) as (d' & ID' & X). exists d'. split; [now right|auto]. }
    destruct X as (d' & ID' & X). assert (GD' : sget name l = Some d') by (apply NoDup_In_dget; auto; apply String_eqb_spec). assert (d' = d) as -> by congruence. exact X. }
  assert (WGr : working_grid (y_R s) (y_min s) (y_max s) = Ok (logspace (value (y_min s)) (value (y_max s)) (y_R s))) by (unfold working_grid, um_of; rewrite U1, U2, !Rmult_1_r; reflexivity).
  destruct (black_body_loads s x src U1 U2 V N YS BB KS SN) as (st & LD & NS & EW).
  destruct (foregrounds_clear (y_maps s) (y_R s) (y_min s) (y_max s) _ f (x_sky x) WGr) as (g & EG & (_ & C1 & C2) & fs & G & NF); auto.
  { intros w0 I0. unfold logspace in I0. apply in_map_iff in I0 as (k & <- & _). apply Rmult_lt_0_compat; [lra|]. unfold Rpower. apply exp_pos. }
  { split; auto. rewrite GS, GF. split; discriminate. }
  assert (FG : foregrounds_of s (x_sky x) = Ok g) by (unfold foregrounds_of; rewrite YF; exact EG).
  assert (GG : geometric_grid (value (y_min s)) (value (y_max s)) (y_R s) (s_wl (st_sed st))). { rewrite EW. pose proof (L_Foreground.grid_spec _ _ _ _ WGr) as GG. unfold S_Source.microns in GG. rewrite U1, U2, !Rmult_1_r in GG. exact GG. }
  assert (WK : forall name c, In (name, c) chs -> works_at (s_wl (st_sed st)) c). { intros name c IC. destruct (BU name c IC) as (d & q & ID & _ & _ & _ & _ & _ & W). apply W. now apply IR. }
  assert (NBC : forall name c, In (name, c) chs -> c_bins (h_star c) <> []). { intros name c IC. assert (AB : as_built channel_columns (name, c)) by (destruct I as (_ & _ & _ & _ & _ & AB); rewrite Forall_forall in AB; auto). destruct AB as (NB & _). destruct (c_bins (h_star c)); [cbn in NB; lia|discriminate]. }
  destruct (same_grid s x st g U1 U2 V N ltac:(congruence) GS LD FG) as (SO & SK & GR). specialize (GR GF fs G).
  exists chs, st, g, fs. split; [exact B|]. split; [exact I|]. split. { intros name c IC. destruct (BU name c IC) as (d & q & ID & _ & _ & _ & _ & HN & _). eauto. }
  split; [exact LD|]. split; [exact FG|]. split; [exact G|].
  intros name c IC. destruct (BU name c IC) as (d & q & ID & GD & SH & O & CC & HN & _). split; [|split].
  - destruct (path_inv _ _ _ _ _ O) as (? & ? & ? & ? & ? & ? & ? & ? & _ & _ & _ & _ & _ & _ & _ & _ & _ & _ & _ & HC & _). rewrite HC. exact VP.
  - rewrite HN. eapply VD; eauto.
  - destruct (WK name c IC) as (SD & DL & SL).
    assert (PSK : physical_sky (g_sky g)). { unfold physical_sky. destruct (g_sky g) as [sk|]; auto. now destruct (C1 sk eq_refl). }
    destruct (star_goes_through c _ _ SO SK PSK NS SL) as (o & t & EO & NO).
    destruct (diffuse_goes_through (h_light c) (M_Observe.edges c) (s_wl (st_sed st)) fs) as (dd & ED & ND); auto.
    + apply SO.
    + unfold M_Observe.edges. specialize (NBC name c IC). destruct (c_bins (h_star c)); [congruence|discriminate].
    + intros k f0 J. destruct (GR k f0 J). eauto.
    + exists dd, o, t. split; auto. split; auto. destruct SD as [SD1 SD2]. split; auto. split; [exact SD2|]. split; [exact ND|]. split; [exact NO|]. rewrite HN. destruct (FF name d ID) as (r & -> & RP'). eauto.
Qed.

(** The estimate [y'] for a star [q] times as bright as that of [y] *)
Definition as_bright (q : R) (chs : channels) (y y' : target) : Prop :=
  exists T T', x_table y = Some T /\ x_table y' = Some T' /\
  forall name c, In (name, c) chs ->
    (forall k, star_column k -> exists v, shows (cols T) name k (reals v) /\ shows (cols T') name k (reals (map (fun a => a * q) v))) /\
    (forall k v, ordinary k -> fresh_column y k -> k <> "MaxSignal_inPixel"%string -> ~ star_column k -> shows (cols T') name k v <-> shows (cols T) name k v) /\
    exists z z', shows (cols T) name "total_noise" (map Num z) /\ shows (cols T') name "total_noise" (map Num z') /\ (q <= 1 -> Forall2 no_better z z') /\ (1 <= q -> Forall2 no_better z' z).
Lemma shows_fun T name k u v : shows T name k u -> shows T name k v -> u = v.
Proof. rewrite <- !select_shows. congruence. Qed.
Lemma undo q s s' : q <> 0 -> S_Source.times_k q s s' -> S_Source.times_k (/ q) s' s.
Proof. intros Q (W & L & A). split; [auto|]. split; [auto|]. intros i. rewrite A. field. exact Q. Qed.
Lemma mission_apart w fuel p l s x f src chs : mission w fuel p l s x f src -> columns_apart channel_columns chs s x.
Proof. intros M _ g G. apply foreign_columns. intros fs' E. eapply M; eauto. Qed.
Lemma skies_apart chs h : Forall (fun sx => no_instrument_in_the_sky (fst sx) (snd sx)) h -> Forall (fun sx => columns_apart channel_columns chs (fst sx) (snd sx)) h.
Proof. apply Forall_impl. intros sx H _ g G. apply foreign_columns. intros fs'. now apply H. Qed.
Lemma compared w fuel p l s x x' f src q h h' : mission w fuel p l s x f src -> mission w fuel p l s x' f src -> x_sky x' = x_sky x -> 0 < q ->
  (forall st, load s x = Ok st -> exists st', load s x' = Ok st' /\ S_Source.times_k q (st_sed st) (st_sed st')) ->
  Forall (fun sx => no_instrument_in_the_sky (fst sx) (snd sx)) h -> Forall (fun sx => no_instrument_in_the_sky (fst sx) (snd sx)) h' ->
  exists chs y y', build_channels w fuel p = Some (Ok chs) /\ snd (observe_target s (after chs h) x) = Ok y /\ snd (observe_target s (after chs h') x') = Ok y' /\ as_bright q chs y y'.
Proof.
  intros M M' SKY Q LX AH AH'. destruct (mission_ready _ _ _ _ _ _ _ _ M) as (chs & st & g & fs & B & I & HN & LD & FG & GF & US). destruct (mission_ready _ _ _ _ _ _ _ _ M') as (chs' & st' & g' & fs' & B' & I' & _ & LD' & FG' & GF' & US').
  assert (chs' = chs) as -> by congruence. rewrite SKY, FG in FG'. injection FG' as <-. rewrite GF in GF'. injection GF' as <-. destruct (LX st LD) as (st2 & LD2 & TK). assert (st2 = st') as -> by congruence.
  assert (AP := mission_apart _ _ _ _ _ _ _ _ chs M). assert (AP' := mission_apart _ _ _ _ _ _ _ _ chs M'). apply (skies_apart chs) in AH. apply (skies_apart chs) in AH'.
  assert (N1 : ~ In "MaxSignal_inPixel"%string channel_columns) by (cbn; intuition discriminate). assert (N2 : In "Wavelength"%string channel_columns) by (cbn; auto). assert (N3 : In "WindowSize"%string channel_columns) by (cbn; auto 10).
  destruct (C115_brightness channel_columns chs h h' s x x' g fs st st' q I channel_columns_quiet N1 N2 N3 AH AH' AP SKY FG GF LD LD' Q TK US) as (y & T & y' & T' & E1 & E2 & E3 & E4 & X).
  assert (IQ : 0 < / q) by now apply Rinv_0_lt_compat.
  destruct (C115_brightness channel_columns chs h' h s x' x g fs st' st (/ q) I channel_columns_quiet N1 N2 N3 AH' AH AP' (eq_sym SKY)) as (y2 & T2 & y3 & T3 & F1 & F2 & F3 & F4 & X'); auto; [now rewrite SKY|apply undo; [lra|auto]|].
  rewrite E3 in F1. injection F1 as <-. rewrite E1 in F3. injection F3 as <-. rewrite E4 in F2. injection F2 as <-. rewrite E2 in F4. injection F4 as <-.
  exists chs, y, y'. split; [auto|]. split; [auto|]. split; [auto|]. exists T, T'. split; [auto|]. split; [auto|]. intros name c IC. destruct (X name c IC) as (X1 & X2 & X3). destruct (X' name c IC) as (_ & _ & X4). split; [auto|]. split; [auto|].
  assert (FX : M_Noise.fixed_frame_time (h_noise c) <> None). { destruct (HN name c IC) as (d & ID & ->). destruct M as (_ & _ & _ & _ & _ & FF & _). destruct (FF name d ID) as (r & -> & _). discriminate. }
  destruct (Rle_lt_dec q 1) as [L|L].
  - destruct (X3 L) as [_ Y]. destruct (Y FX) as (z & z' & Z1 & Z2 & Z3). exists z, z'. split; [auto|]. split; [auto|]. split; [auto|]. intros L'. assert (q = 1) by lra. subst q. destruct (X4 ltac:(lra)) as [_ Y']. destruct (Y' FX) as (u & u' & U1 & U2 & U3).
    assert (INJ : forall a b : list xr, map Num a = map Num b -> a = b). { clear. induction a as [|v a IH]; intros [|v' b]; cbn; try discriminate; auto. intros [= -> E]. f_equal. auto. }
    pose proof (shows_fun _ _ _ _ _ Z1 U2) as W1. pose proof (shows_fun _ _ _ _ _ Z2 U1) as W2. apply INJ in W1. apply INJ in W2. now subst.
  - assert (LI : / q <= 1). { rewrite <- Rinv_1. apply Rinv_le_contravar; lra. } destruct (X4 LI) as [_ Y]. destruct (Y FX) as (z & z' & Z1 & Z2 & Z3). exists z', z. split; [auto|]. split; [auto|]. split; [intros; lra|auto].
Qed.

(** ** C115 for missions: the distance and the radius of the star *)
Theorem C115_distance : forall w fuel p l s x f src h h' D k, mission w fuel p l s x f src -> t_D (x_stellar x) = Some D -> 0 < k ->
  Forall (fun sx => no_instrument_in_the_sky (fst sx) (snd sx)) h -> Forall (fun sx => no_instrument_in_the_sky (fst sx) (snd sx)) h' ->
  exists chs y y', build_channels w fuel p = Some (Ok chs) /\ snd (observe_target s (after chs h) x) = Ok y /\ snd (observe_target s (after chs h') (at_distance x (k * D))) = Ok y' /\ as_bright (/ k ^ 2) chs y y'.
Proof.
  intros w fuel p l s x f src h h' D k M HD K AH AH'. assert (IK : 0 < k ^ 2) by nra. assert (D0 : 0 < D). { destruct M as (_ & _ & _ & _ & _ & _ & _ & _ & _ & _ & _ & _ & _ & _ & _ & _ & _ & _ & _ & _ & (D1 & T1 & M1 & r1 & E & _ & _ & _ & P & _) & _). congruence. }
  apply (compared w fuel p l s x _ f src); auto; try apply Rinv_0_lt_compat; auto.
  - destruct M as (H1 & H2 & H3 & H4 & H5 & H6 & H7 & H8 & H9 & H10 & H11 & H12 & H13 & H14 & H15 & H16 & H17 & H18 & H19 & H20 & H21 & H22 & H23). unfold mission. cbn [at_distance x_sky x_star_name x_stellar]. do 20 (split; [assumption|]). split; [|split; [exact H22|exact H23]].
    destruct H21 as (D1 & T1 & M1 & r1 & E & E1 & E2 & E3 & P & P1). exists (k * D), T1, M1, r1. cbn [t_D t_Teff t_M t_R S_Source.with_D]. do 4 (split; [auto|]). split; [nra|auto].
  - intros st LD. apply load_distance; auto. lra.
Qed.
Print Assumptions C115_distance.
Theorem C115_radius : forall w fuel p l s x f src h h' r k, mission w fuel p l s x f src -> t_R (x_stellar x) = Some r -> 0 < k ->
  Forall (fun sx => no_instrument_in_the_sky (fst sx) (snd sx)) h -> Forall (fun sx => no_instrument_in_the_sky (fst sx) (snd sx)) h' ->
  exists chs y y', build_channels w fuel p = Some (Ok chs) /\ snd (observe_target s (after chs h) x) = Ok y /\ snd (observe_target s (after chs h') (with_radius x (k * r))) = Ok y' /\ as_bright (k ^ 2) chs y y'.
Proof.
  intros w fuel p l s x f src h h' r k M HR K AH AH'. assert (IK : 0 < k ^ 2) by nra. assert (R0 : 0 < r). { destruct M as (_ & _ & _ & _ & _ & _ & _ & _ & _ & _ & _ & _ & _ & _ & _ & _ & _ & _ & _ & _ & (D1 & T1 & M1 & r1 & _ & _ & _ & E & _ & _ & _ & P) & _). congruence. }
  pose proof M as (H1 & H2 & H3 & H4 & H5 & H6 & H7 & H8 & H9 & H10 & H11 & H12 & H13 & H14 & H15 & H16 & H17 & H18 & H19 & H20 & H21 & H22 & H23).
  apply (compared w fuel p l s x _ f src); auto.
  - unfold mission. cbn [with_radius x_sky x_star_name x_stellar]. do 20 (split; [assumption|]). split; [|split; [exact H22|exact H23]].
    destruct H21 as (D1 & T1 & M1 & r1 & E & E1 & E2 & E3 & P & P1 & P2 & P3). exists D1, T1, M1, (k * r). cbn [t_D t_Teff t_M t_R S_Source.with_R]. do 4 (split; [auto|]). do 3 (split; [auto|]). nra.
  - intros st LD. destruct H20 as (v & V1 & V2 & V3). eapply load_radius; eauto.
Qed.
Print Assumptions C115_radius.

(** Vega at twice its distance: the telescope sees a quarter of its light. *)
Lemma vega_mission fuel : mission sharp fuel telescope [("phot"%string, phot); ("spec"%string, spec)] run vega sky_over_us (SourceName "Planck").
Proof.
  repeat (split; [first [reflexivity|discriminate|apply telescope_named|apply telescope_complete|apply telescope_in_range|apply run_sensible|apply vega_known|idtac]|]); try reflexivity; try discriminate.
  all: try (intros name d r [[= <- <-]|[[= <- <-]|[]]]; discriminate).
  all: try (intros name d [[= <- <-]|[[= <- <-]|[]]]; exists 3; (split; [reflexivity|lra])).
  all: try (intros name d [[= <- <-]|[[= <- <-]|[]]]; constructor).
  all: try constructor.
  all: try (cbn; lra).
  all: try (intros Y; now destruct Y).
  all: try apply (Forall_inv (sky_known [(run, vega)] (Forall_cons _ eq_refl (Forall_nil _)))).
Qed.
Example C115_ex fuel h : Forall (fun sx => sx = (run, vega)) h -> forall D, t_D (x_stellar vega) = Some D ->
  exists chs y y' T T' v, build_channels sharp fuel telescope = Some (Ok chs) /\ snd (observe_target run (after chs h) vega) = Ok y /\ snd (observe_target run (after chs []) (at_distance vega (2 * D))) = Ok y' /\
  x_table y = Some T /\ x_table y' = Some T' /\ shows (cols T) "spec" "star_signal_inAperture" (reals v) /\ shows (cols T') "spec" "star_signal_inAperture" (reals (map (fun a => a * / 4) v)).
Proof.
  intros H D HD. destruct (C115_distance sharp fuel telescope _ run vega _ _ h [] D 2 (vega_mission fuel) HD ltac:(lra) (sky_known _ H) (Forall_nil _)) as (chs & y & y' & B & O & O' & T & T' & XT & XT' & X).
  destruct (a_telescope fuel) as (a & b & B' & _). assert (chs = [("phot"%string, a); ("spec"%string, b)]) as -> by congruence.
  destruct (X "spec"%string b) as (X1 & _); [right; now left|]. destruct (X1 "star_signal_inAperture"%string) as (v & V1 & V2); [cbn; auto|]. replace (2 ^ 2) with 4 in V2 by ring.
  eexists _, y, y', T, T', v. split; [exact B|]. repeat (split; [assumption|]). assumption.
Qed.
