(** Noisier detectors and automatic frame times (C120). *)
From Coq Require Import Reals Lra Psatz Lia.
From Verif Require Import Base Dict PyStr XR M_Signal M_Optics M_Light M_Bins M_Psf M_Omega M_Star M_Source M_Foreground S_Signal S_Optics S_Light S_Bins S_Star S_Success S_Foreground L_Signal L_Optics L_Light L_Bins P_Optics P_Bins P_Windows P_Light P_Success P_Omega P_Star P_Source P_Foreground.
From Verif Require M_Noise P_Noise L_Foreground S_Source P_Star.
From Verif Require Import S_Noise L_Noise.
From Verif Require Import M_Table L_Table P_Table M_Observe S_Observe L_Observe L_Stages L_Outcome S_Works S_Complete P_Observe P_Outcome P_Works P_Complete P_Instance M_Build S_Build S_Ready L_Build L_Ready P_Build P_Ready P_Mission P_Telescope S_Full P_Full S_Bright L_Bright P_Bright P_BrightMission L_Compare S_Area P_Area S_Glow L_Glow P_Glow S_Worse P_Worse S_Filter L_Filter P_Filter S_Faded L_Faded P_Faded S_Seen L_Seen P_Seen P_Auto P_Framed.
Open Scope list_scope.
Open Scope R_scope.

(** Channels with automatic frame times keep their well depths (and the fraction to fill). *)
Definition same_wells (p p' : payload) : Prop :=
  forall l l' name d d', p_channel p = Some (Ordered l) -> p_channel p' = Some (Ordered l') -> In (name, d) l -> In (name, d') l' ->
  M_Noise.fixed_frame_time (d_detector d) = None ->
  M_Noise.well_depth (d_detector d') = M_Noise.well_depth (d_detector d) /\ M_Noise.f_well_depth (d_detector d') = M_Noise.f_well_depth (d_detector d).
Lemma seeing_worse w fuel p p' l l' s x f src : p_optics p' = p_optics p -> more_custom (p_custom p) (p_custom p') -> p_channel p' = Some (Ordered l') ->
  Forall2 (fun nd nd' => fst nd' = fst nd /\ exists ch, snd nd' = with_detector (snd nd) ch /\ worse (d_detector (snd nd)) ch) l l' -> seeing_mission w fuel p l s x f src -> seeing_mission w fuel p' l' s x f src.
Proof.
  intros PO PC CH F (H1 & H2 & (H3 & H3') & H4 & H5 & H6 & H7 & H8 & H9 & H10). assert (FN : map fst l' = map fst l) by (clear -F; induction F as [|a b l l' (E & _) F IH]; cbn; congruence).
  assert (BACK : forall name d', In (name, d') l' -> exists d ch, In (name, d) l /\ d' = with_detector d ch /\ worse (d_detector d) ch). { intros name d' I. destruct (F2_in _ _ _ _ F I) as ([n d] & J & E & ch & W1 & W2). cbn [fst snd] in *. subst. exists d, ch. auto. }
  split; [exact CH|]. split; [intros ->; inversion F; subst; congruence|]. split; [split; [now rewrite FN|]|]. { intros name d' I. destruct (BACK _ _ I) as (d & ch & J & -> & (WN & _)). cbn [with_detector d_detector]. rewrite WN. exact (H3' name d J). }
  split. { intros name d' r I. destruct (BACK _ _ I) as (d & ch & J & -> & _). exact (H4 name d r J). }
  split. { intros name d' I. destruct (BACK _ _ I) as (d & ch & J & -> & W). assert (SL : forall v, has_slit p' (with_detector d ch) v <-> has_slit p d v) by (intros v; unfold has_slit; rewrite PO; reflexivity).
    destruct (H5 name d J) as [C|C]; [left|right].
    - destruct C as (C1 & C2 & C3 & C4). split; [eapply common_worse; eauto|]. split; [exact C2|]. split; [intros v X; exact (C3 v (proj1 (SL v) X))|exact C4].
    - destruct C as (C1 & C2 & C3 & C4 & ss & e & bins & wls & gg & D1 & D2 & D). split; [eapply common_worse; eauto|]. split; [exact C2|]. split; [exact C3|]. split; [exact C4|]. exists ss, e, bins, wls, gg. split; [exact D1|]. split; [exact D2|].
      cbv zeta in *. destruct D as (E1 & E2 & E3 & E4 & E5 & E6 & E7 & E8 & E9). do 8 (split; [assumption|]). intros v V. exact (E9 v (proj1 (SL v) V)). }
  split. { intros name d' wl I GG. destruct (BACK _ _ I) as (d & ch & J & -> & (_ & W & _)). cbn [with_detector d_detector]. rewrite W. destruct (H6 name d wl J GG) as [X|(X & (CA & CE) & SE)]; [now left|right]. split; [exact X|]. split; [|exact SE].
    split; [rewrite PO; exact CA|]. intros o e. rewrite PO. exact (CE o e). }
  split. { intros name d' wl I. destruct (BACK _ _ I) as (d & ch & J & -> & _). exact (H7 name d wl J). }
  split; [eapply more_valid; eauto|]. split; [|exact H10]. intros name d' I. destruct (BACK _ _ I) as (d & ch & J & -> & (_ & _ & W & _)). exact (more_valid _ _ W (H9 name d J)).
Qed.

Theorem C120_automatic_frame_times : forall w fuel p p' l s x f src h h', seeing_mission w fuel p l s x f src -> payload_worse p p' -> same_wells p p' ->
  Forall (fun sx => no_instrument_in_the_sky (fst sx) (snd sx)) h -> Forall (fun sx => no_instrument_in_the_sky (fst sx) (snd sx)) h' ->
  exists chs chs' y y', build_channels w fuel p = Some (Ok chs) /\ build_channels w fuel p' = Some (Ok chs') /\ map fst chs' = map fst chs /\
    snd (observe_target s (after chs h) x) = Ok y /\ snd (observe_target s (after chs' h') x) = Ok y' /\ as_noisy chs y y'.
Proof.
  intros w fuel p p' l s x f src h h' M (PO & PC & l0 & l' & CH & CH' & FL) SW AH AH'. assert (l0 = l) as -> by (destruct M as (C & _); congruence). pose proof (seeing_worse w fuel p p' l l' s x f src PO PC CH' FL M) as M'.
  destruct (seeing_ready _ _ _ _ _ _ _ _ M) as (chs & st & g & fs & B & I & LD & FG & GF & _ & _ & _ & _ & _ & _ & _ & _ & US). destruct (seeing_ready _ _ _ _ _ _ _ _ M') as (chs' & st' & g' & fs' & B' & I' & LD' & FG' & GF' & _ & _ & _ & _ & _ & _ & _ & HN' & US').
  assert (BA := B). unfold build_channels in BA. rewrite CH in BA. destruct (channels_worse w fuel p p' l l' chs PO FL BA) as (chs2 & B2 & F2). assert (chs2 = chs') as -> by (unfold build_channels in B'; rewrite CH' in B'; congruence).
  rewrite LD in LD'. injection LD' as <-. rewrite FG in FG'. injection FG' as <-. rewrite GF in GF'. injection GF' as <-.
  assert (N1 : ~ In "MaxSignal_inPixel"%string channel_columns) by (cbn; intuition discriminate). assert (N2 : In "Wavelength"%string channel_columns) by (cbn; auto). assert (N3 : In "WindowSize"%string channel_columns) by (cbn; auto 10).
  destruct (observed_rows channel_columns chs h s x g fs st I channel_columns_quiet N1 N2 N3 (skies_apart chs h AH) (seeing_apart _ _ _ _ _ _ _ _ chs M) FG GF LD US) as (y & T & O & XT & XS & V).
  destruct (observed_rows channel_columns chs' h' s x g fs st I' channel_columns_quiet N1 N2 N3 (skies_apart _ h' AH') (seeing_apart _ _ _ _ _ _ _ _ _ M') FG GF LD US') as (y' & T' & O' & XT' & XS' & V').
  exists chs, chs', y, y'. split; [auto|]. split; [auto|]. split. { clear -F2. induction F2 as [|a a' q q' (E & _) F IH]; cbn; auto. now rewrite E, IH. }
  split; [auto|]. split; [auto|]. exists T, T'. split; [auto|]. split; [auto|]. intros name c IC.
  assert (AB : as_built channel_columns (name, c)) by (destruct I as (_ & _ & _ & _ & _ & AB); rewrite Forall_forall in AB; auto).
  destruct (F2_in_l _ _ _ _ F2 IC) as ([n c'] & IC' & EN & d & ch & ID & W & HNo & HCo & EC). cbn [fst snd] in *. subst n c'.
  pose proof W as (_ & WF & WC & det & det' & DE & DE' & PH & PH' & Q1 & Q2 & Q3 & Q4 & Q5). rewrite <- HNo in DE.
  destruct (V name c det IC DE PH) as (o & tf & total & SR). destruct (V' name _ det' IC' DE' PH') as (o' & tf' & total' & SR').
  assert (o' = o) as -> by (pose proof (sr_own _ _ _ _ _ _ _ _ _ _ _ _ SR'); pose proof (sr_own _ _ _ _ _ _ _ _ _ _ _ _ SR) as X; change (own (Some fs) (st_sed st) (g_sky g) (name, rewired ch (p_custom p') c)) with (own (Some fs) (st_sed st) (g_sky g) (name, c)) in *; congruence).
  change (bins_of (name, rewired ch (p_custom p') c)) with (bins_of (name, c)) in *.
  assert (TF : tf' = tf).
  { destruct (HN' name _ IC') as (d' & _ & _ & ID' & _ & _ & _ & ED & _). cbn [rewired h_noise] in ED. subst ch.
    pose proof (sr_frame _ _ _ _ _ _ _ _ _ _ _ _ SR) as A1. pose proof (sr_frame _ _ _ _ _ _ _ _ _ _ _ _ SR') as A2. cbn [rewired h_noise] in A2. rewrite HNo in A1. rewrite WF in A2.
    destruct (M_Noise.fixed_frame_time (d_detector d)) as [r|] eqn:FR; [congruence|].
    destruct (SW l l' name d d' ltac:(apply M) CH' ID ID' FR) as [S1 S2]. destruct DE as (D1 & D2 & _). destruct DE' as (D1' & D2' & _). rewrite HNo in D1, D2. specialize (D2 FR). specialize (D2' WF). assert (E1 : d_well det' = d_well det) by congruence. assert (E2 : d_f det' = d_f det) by congruence.
    change (bins_of (name, rewired (d_detector d') (p_custom p') c)) with (bins_of (name, c)) in A2. rewrite E1, E2 in A2. destruct PH as (P1 & P2 & _).
    assert (X : tf / 1 <= tf' <= tf / 1). { eapply (frames_between (d_well det) (d_f det) (bins_of (name, c)) (maxima o) (maxima o)); try eassumption; try lra; [apply Rmult_lt_0_compat; lra|]. intros i _. lra. }
    lra. }
  subst tf'.
  change (bins_of (name, rewired ch (p_custom p') c)) with (bins_of (name, c)) in *.
  split.
  - intros m v OM FR. apply fresh_loud in FR. rewrite XS in FR. destruct (string_dec m "MaxSignal_inPixel") as [->|NM].
    + pose proof (sr_max _ _ _ _ _ _ _ _ _ _ _ _ SR) as A1. pose proof (sr_max _ _ _ _ _ _ _ _ _ _ _ _ SR') as A2. split; intros X; [rewrite (shows_fun _ _ _ _ _ X A2); exact A1|rewrite (shows_fun _ _ _ _ _ X A1); exact A2].
    + destruct OM as [OM| ->]; [rewrite (sr_shows _ _ _ _ _ _ _ _ _ _ _ _ SR), (sr_shows _ _ _ _ _ _ _ _ _ _ _ _ SR') by auto; tauto|].
      pose proof (sr_frame_shown _ _ _ _ _ _ _ _ _ _ _ _ SR) as A1. pose proof (sr_frame_shown _ _ _ _ _ _ _ _ _ _ _ _ SR') as A2. split; intros X; [rewrite (shows_fun _ _ _ _ _ X A2); exact A1|rewrite (shows_fun _ _ _ _ _ X A1); exact A2].
  - exists (map total (List.seq 0 (bins_of (name, c)))), (map total' (List.seq 0 (bins_of (name, c)))). rewrite !map_map. split; [exact (sr_total_shown _ _ _ _ _ _ _ _ _ _ _ _ SR)|]. split; [exact (sr_total_shown _ _ _ _ _ _ _ _ _ _ _ _ SR')|]. apply seq_F2. intros i L.
    destruct (sr_total _ _ _ _ _ _ _ _ _ _ _ _ SR i L) as [A1 A2]. destruct (sr_total _ _ _ _ _ _ _ _ _ _ _ _ SR' i L) as [B1 B2'].
    destruct (Req_EM_T (value_at o "star_signal_inAperture" i) 0) as [Z|Z]; [rewrite A1, B1 by auto; exact Coq.Init.Logic.I|]. rewrite A2, B2' by auto. cbn [no_better rewired h_common h_noise].
    assert (P : forall k, In k (names o) -> contains "signal" k = true \/ contains "Max" k = true \/ k = "Wavelength"%string \/ k = "WindowSize"%string -> 0 <= value_at o k i) by (intros k J W0; apply (sr_pos _ _ _ _ _ _ _ _ _ _ _ _ SR); auto).
    assert (SI : In "star_signal_inAperture"%string (names o)). { destruct (own_get _ _ _ _ _ _ AB (sr_own _ _ _ _ _ _ _ _ _ _ _ _ SR)) as (d1 & s1 & t1 & _ & _ & G). apply sget_names. rewrite G. unfold star_columns. destruct (g_sky g), (o_sky s1); cbn; eauto. }
    assert (S0 : 0 <= value_at o "star_signal_inAperture" i) by (apply P; auto).
    assert (WI : In "WindowSize"%string (names o)) by now apply (sr_base _ _ _ _ _ _ _ _ _ _ _ _ SR).
    destruct (noisier_row det det' (filter (contains "signal") (names o)) (value_at o) tf i) as [L0 L1]; auto.
    + apply (sr_tf _ _ _ _ _ _ _ _ _ _ _ _ SR).
    + intros k J. apply filter_In in J as [J1 J2]. auto.
    + lra.
    + apply sqrt_le_1_alt. pose proof (more_ppm2 _ _ PC) as M1. rewrite HCo. pose proof (more_ppm2 _ _ WC) as M2. rewrite HNo. apply Rplus_le_compat; [apply pow_incr; lra|lra].
Qed.
Print Assumptions C120_automatic_frame_times.

(** The camera, the detector of which has fifty times the dark current and jitter besides: no less noise,
    its automatic frame time is the same. *)
Definition old_camera : payload :=
  {| p_optics := p_optics camera; p_custom := None; p_channel := Some (Ordered [("phot"%string, with_detector auto_phot (aged auto_detector))]) |}.
Lemma camera_aged : payload_worse camera old_camera /\ same_wells camera old_camera.
Proof.
  split.
  - split; [reflexivity|]. split; [exists [], []; repeat split; constructor|]. do 2 eexists. split; [reflexivity|]. split; [reflexivity|]. constructor; [|constructor]. split; [reflexivity|]. eexists. split; [reflexivity|].
    split; [reflexivity|]. split; [reflexivity|]. split.
    + exists [], [{| M_Noise.e_name := Some "jitter"%string; M_Noise.e_value := Some (Fin 20) |}]. split; [reflexivity|]. split; [constructor|]. constructor; [|constructor]. split; [discriminate|]. now exists 20.
    + exists the_numbers, {| d_well := 100; d_f := 1 / 2; d_freq := 1; d_M := 1; d_dark := 50; d_read := 1; d_X := 0 |}. split; [repeat split; auto|]. split; [repeat split; auto|]. unfold S_Noise.physical, the_numbers. cbn. repeat split; lra.
  - intros l l' n d d' [= <-] [= <-] [[= <- <-]|[]] [[= <-]|[]] _. split; reflexivity.
Qed.
Example C120_camera_ex fuel : exists chs chs' y y' T T' z z', build_channels sharp fuel camera = Some (Ok chs) /\ build_channels sharp fuel old_camera = Some (Ok chs') /\
  snd (observe_target run3 chs vega) = Ok y /\ snd (observe_target run3 chs' vega) = Ok y' /\ x_table y = Some T /\ x_table y' = Some T' /\
  shows (cols T) "phot" "total_noise" (map Num z) /\ shows (cols T') "phot" "total_noise" (map Num z') /\ Forall2 no_better z z'.
Proof.
  destruct camera_aged as [PW SW].
  destruct (C120_automatic_frame_times sharp fuel camera old_camera _ run3 vega _ _ [] [] (camera_sees fuel) PW SW (Forall_nil _) (Forall_nil _)) as (chs & chs' & y & y' & B & B1 & _ & O & O' & T & T' & XT & XT' & X).
  destruct (channel_of sharp fuel camera [("phot"%string, auto_phot)] chs "phot" auto_phot eq_refl B (or_introl eq_refl)) as (c & IC).
  destruct (X "phot"%string c IC) as (_ & z & z' & Z1 & Z2 & Z3). exists chs, chs', y, y', T, T', z, z'. repeat (split; [assumption|]). exact Z3.
Qed.
