(** Warmer or more emissive optics and automatic frame times (C126). *)
From Coq Require Import Reals Lra Psatz Lia.
From Verif Require Import Base Dict PyStr XR M_Signal M_Optics M_Light M_Bins M_Psf M_Omega M_Star M_Source M_Foreground S_Signal S_Optics S_Light S_Bins S_Star S_Success S_Foreground L_Signal L_Optics L_Light L_Bins P_Optics P_Bins P_Windows P_Light P_Success P_Omega P_Star P_Source P_Foreground.
From Verif Require M_Noise P_Noise L_Foreground S_Source P_Star.
From Verif Require Import S_Noise L_Noise.
From Verif Require Import M_Table L_Table P_Table M_Observe S_Observe L_Observe L_Stages L_Outcome S_Works S_Complete P_Observe P_Outcome P_Works P_Complete P_Instance M_Build S_Build S_Ready L_Build L_Ready P_Build P_Ready P_Mission P_Telescope S_Full P_Full S_Bright L_Bright P_Bright P_BrightMission L_Compare S_Area P_Area S_Glow L_Glow P_Glow S_Worse P_Worse S_Filter L_Filter P_Filter S_Faded L_Faded P_Faded S_Seen L_Seen P_Seen P_Auto S_Warm L_Warm P_Warm P_Framed.
Open Scope list_scope.
Open Scope R_scope.

(** Warmth blocks nothing *)
Lemma clear_warmer lo hi e e' : warmer e e' -> clear_element lo hi e -> clear_element lo hi e'.
Proof.
  intros (W & _ & _ & WD) C. unfold clear_element in *. destruct WD as [WD|(t & t' & V & V' & EC & _)].
  - rewrite WD. destruct (sget "data" e) as [[x|x|t]|]; [..|exact C| ]; (destruct C as (C1 & C2 & C3); split; [intros k v K; rewrite W by (destruct K as [->| ->]; discriminate); now apply C1|]; split; intros v; rewrite W by discriminate; auto).
  - rewrite V in C. rewrite V'. intros x y WX TR. rewrite !EC in TR by discriminate. apply (C x y); auto. unfold wavelengths_of in *. rewrite !EC in WX by discriminate. exact WX.
Qed.
Lemma clear_warm p p' d own : optics_of p p' -> option_warmer (d_optics d) own -> clear_optics p d -> clear_optics p' (with_optics d own).
Proof.
  intros (o & o' & P1 & P2 & _ & OA & WM) WO (CA & CE). split; [intros q Q; rewrite P2 in Q; injection Q as <-; rewrite OA; now apply CA|].
  intros q e [Q|Q] EL; cbn [with_optics d_from d_to].
  - rewrite P2 in Q. injection Q as ->. destruct (warm_elements _ _ WM e EL) as (e0 & EE & W). apply (clear_warmer _ _ _ _ W). apply (CE (o_elements o)); [left; now rewrite P1|exact EE].
  - cbn [with_optics d_optics] in Q. subst own. destruct (d_optics d) as [ow|] eqn:DO; cbn [option_warmer] in WO; [|contradiction]. destruct (warm_elements _ _ WO e EL) as (e0 & EE & W). apply (clear_warmer _ _ _ _ W). apply (CE ow); [now right|exact EE].
Qed.
Lemma seeing_warm w fuel p p' l l' s x f src : optics_of p p' -> p_custom p' = p_custom p -> p_channel p' = Some (Ordered l') -> channels_of l l' -> seeing_mission w fuel p l s x f src -> seeing_mission w fuel p' l' s x f src.
Proof.
  intros PO PC CH F (H1 & H2 & (H3 & H3') & H4 & H5 & H6 & H7 & H8 & H9 & H10). assert (FN : map fst l' = map fst l) by (clear -F; induction F as [|a b l l' (E & _) F IH]; cbn; congruence).
  assert (BACK : forall name d', In (name, d') l' -> exists d own, In (name, d) l /\ d' = with_optics d own /\ option_warmer (d_optics d) own). { intros name d' I. destruct (F2_in _ _ _ _ F I) as ([n d] & J & E & own & W1 & W2). cbn [fst snd] in *. subst. exists d, own. auto. }
  split; [exact CH|]. split; [intros ->; inversion F; subst; congruence|]. split; [split; [now rewrite FN|]|]. { intros name d' I. destruct (BACK _ _ I) as (d & q & J & -> & _). exact (H3' name d J). }
  split. { intros name d' r I. destruct (BACK _ _ I) as (d & q & J & -> & _). exact (H4 name d r J). }
  split. { intros name d' I. destruct (BACK _ _ I) as (d & own & J & -> & W). destruct (H5 name d J) as [C|C]; [left|right].
    - destruct C as (C1 & C2 & C3 & C4). split; [eapply common_warm; eauto|]. split; [exact C2|]. split; [intros v X; exact (C3 v (warm_slits _ _ _ _ _ PO W X))|exact C4].
    - destruct C as (C1 & C2 & C3 & C4 & ss & e & bins & wls & gg & D1 & D2 & D). split; [eapply common_warm; eauto|]. split; [exact C2|]. split; [exact C3|]. split; [exact C4|]. exists ss, e, bins, wls, gg. split; [exact D1|]. split; [exact D2|].
      cbv zeta in *. destruct D as (E1 & E2 & E3 & E4 & E5 & E6 & E7 & E8 & E9). do 8 (split; [assumption|]). intros v V. exact (E9 v (warm_slits _ _ _ _ _ PO W V)). }
  split. { intros name d' wl I GG. destruct (BACK _ _ I) as (d & own & J & -> & WO). destruct (H6 name d wl J GG) as [X|(X & CL & SE)]; [now left|right]. split; [exact X|]. split; [|exact SE]. exact (clear_warm p p' d own PO WO CL). }
  split. { intros name d' wl I. destruct (BACK _ _ I) as (d & q & J & -> & _). exact (H7 name d wl J). }
  split; [now rewrite PC|]. split; [|exact H10]. intros name d' I. destruct (BACK _ _ I) as (d & q & J & -> & _). exact (H9 name d J).
Qed.
Lemma seeing_sound w fuel p l s x f src chs name c : seeing_mission w fuel p l s x f src -> build_channels w fuel p = Some (Ok chs) -> In (name, c) chs -> P_Light.sound (h_light c).
Proof.
  intros (C & NE & NM & RP & CO & FF & IR & VP & VD & U1 & U2 & V & N & _) B IC. destruct (C96_complete_payload_builds w fuel p l C NE NM RP CO) as (chs' & B' & _ & F). assert (chs' = chs) as -> by congruence.
  assert (WGr : working_grid (y_R s) (y_min s) (y_max s) = Ok (logspace (value (y_min s)) (value (y_max s)) (y_R s))) by (unfold working_grid, um_of; rewrite U1, U2, !Rmult_1_r; reflexivity).
  pose proof (L_Foreground.grid_spec _ _ _ _ WGr) as GG. unfold S_Source.microns in GG. rewrite U1, U2, !Rmult_1_r in GG.
  destruct (F2_in _ _ _ _ F IC) as ([n d] & ID & EN & _ & W). cbn [fst snd] in *. subst. destruct (W _ (IR n d _ ID GG)) as (_ & DL & _). destruct DL as (D1 & D2 & D3 & D4 & _ & _ & _ & D5 & D6 & D7 & _). unfold P_Light.sound. auto 10.
Qed.


(** A channel with more light of the instrument: the fullest pixels are no emptier, the frame time is no
    longer, a fixed one stays, and with it nothing has less noise. *)
Definition shorter_frames (c : chan) (T T' : table) (name : string) : Prop :=
  (exists m m' tf tf', shows T name "MaxSignal_inPixel" (reals m) /\ shows T' name "MaxSignal_inPixel" (reals m') /\ no_smaller m m' /\
     shows T name "frameTime" (reals (map (fun _ => tf) m)) /\ shows T' name "frameTime" (reals (map (fun _ => tf') m')) /\ 0 < tf' <= tf /\
     (M_Noise.fixed_frame_time (h_noise c) <> None -> tf' = tf)) /\
  (M_Noise.fixed_frame_time (h_noise c) <> None -> exists z z', shows T name "total_noise" (map Num z) /\ shows T' name "total_noise" (map Num z') /\ Forall2 no_better z z').
Lemma fuller_frames s s' g g' fs fs' st st' T T' name c c' o o' det tf tf' total total' : seen_rows channel_columns s g fs st T name c o det tf total -> seen_rows channel_columns s' g' fs' st' T' name c' o' det tf' total' ->
  h_noise c' = h_noise c -> bins_of (name, c') = bins_of (name, c) ->
  (forall i, (i < bins_of (name, c))%nat -> maxima o i <= maxima o' i) ->
  (M_Noise.fixed_frame_time (h_noise c) <> None -> exists z z', shows T name "total_noise" (map Num z) /\ shows T' name "total_noise" (map Num z') /\ Forall2 no_better z z') ->
  shorter_frames c T T' name.
Proof.
  intros SR SR' SN SB ML NZ. split; [|exact NZ].
  exists (map (maxima o) (List.seq 0 (bins_of (name, c)))), (map (maxima o') (List.seq 0 (bins_of (name, c)))), tf, tf'. rewrite !map_map, <- !numbers_reals.
  split; [exact (sr_max _ _ _ _ _ _ _ _ _ _ _ _ SR)|]. split; [rewrite <- SB; exact (sr_max _ _ _ _ _ _ _ _ _ _ _ _ SR')|]. split; [apply seq_F2; exact ML|].
  split; [exact (sr_frame_shown _ _ _ _ _ _ _ _ _ _ _ _ SR)|]. split; [rewrite <- SB; exact (sr_frame_shown _ _ _ _ _ _ _ _ _ _ _ _ SR')|]. pose proof (sr_tf _ _ _ _ _ _ _ _ _ _ _ _ SR) as TP. pose proof (sr_tf _ _ _ _ _ _ _ _ _ _ _ _ SR') as TP'.
  pose proof (sr_frame _ _ _ _ _ _ _ _ _ _ _ _ SR) as FA. pose proof (sr_frame _ _ _ _ _ _ _ _ _ _ _ _ SR') as FB. rewrite SN, SB in FB. destruct (M_Noise.fixed_frame_time (h_noise c)) as [ft|].
  + rewrite FA in FB. injection FB as <-. split; [lra|auto].
  + split; [|congruence]. split; [exact TP'|]. pose proof (sr_detector _ _ _ _ _ _ _ _ _ _ _ _ SR) as (_ & PWw & PFf & _).
    destruct FA as (_ & _ & i & L & E). destruct FB as (_ & A' & _). specialize (A' i L). specialize (ML i L). assert (P : 0 < d_f det * d_well det) by (apply Rmult_lt_0_compat; lra).
    assert (0 < maxima o i) by (destruct (Rle_lt_dec (maxima o i) 0); [nra|auto]). apply (Rmult_le_reg_l (maxima o i)); [auto|]. nra.
Qed.
(** ** C126: warmer or more emissive optics *)
(** The estimate [y'] with warmer optics than for [y]: more light of the instrument, higher peaks,
    shorter frames where they are automatic, and no better a noise where they are fixed *)
Definition as_warm_framed (chs : channels) (y y' : target) : Prop :=
  exists T T', x_table y = Some T /\ x_table y' = Some T' /\
  forall ch c, In (ch, c) chs ->
    (forall m, instrument_column m -> exists u v, shows (cols T) ch m (reals u) /\ shows (cols T') ch m (reals v) /\ no_smaller u v) /\
    (forall m v, ordinary m -> fresh_column y m -> m <> "MaxSignal_inPixel"%string -> ~ instrument_column m -> shows (cols T') ch m v <-> shows (cols T) ch m v) /\
    shorter_frames c (cols T) (cols T') ch.
Theorem C126_warmer_optics : forall w fuel p p' l s x sky src h h', seeing_mission w fuel p l s x sky src -> payload_warmer p p' ->
  Forall (fun sx => no_instrument_in_the_sky (fst sx) (snd sx)) h -> Forall (fun sx => no_instrument_in_the_sky (fst sx) (snd sx)) h' ->
  exists chs chs' y y', build_channels w fuel p = Some (Ok chs) /\ build_channels w fuel p' = Some (Ok chs') /\ map fst chs' = map fst chs /\
    snd (observe_target s (after chs h) x) = Ok y /\ snd (observe_target s (after chs' h') x) = Ok y' /\ as_warm_framed chs y y'.
Proof.
  intros w fuel p p' l s x sky src h h' M (PO & PC & l0 & l' & CH & CH' & FL) AH AH'. assert (l0 = l) as -> by (destruct M as (C & _); congruence). fold (optics_of p p') in PO. pose proof (seeing_warm w fuel p p' l l' s x sky src PO PC CH' FL M) as M'.
  destruct (seeing_ready _ _ _ _ _ _ _ _ M) as (chs & st & g & fs & B & I & LD & FG & GF & _ & _ & _ & _ & _ & _ & _ & _ & US). destruct (seeing_ready _ _ _ _ _ _ _ _ M') as (chs' & st' & g' & fs' & B' & I' & LD' & FG' & GF' & _ & _ & _ & _ & _ & _ & _ & _ & US').
  pose proof M as (_ & _ & _ & _ & CO & _).
  assert (BA := B). unfold build_channels in BA. rewrite CH in BA. assert (BA' := B'). unfold build_channels in BA'. rewrite CH' in BA'. assert (CCO : forall name d, In (name, d) l -> complete_common w p name d) by (intros name d ID; destruct (CO name d ID) as [X|X]; apply X).
  pose proof (channels_warm w fuel p p' l l' PO PC FL CCO chs chs' BA BA') as F2.
  rewrite LD in LD'. injection LD' as <-. rewrite FG in FG'. injection FG' as <-. rewrite GF in GF'. injection GF' as <-.
  assert (N1 : ~ In "MaxSignal_inPixel"%string channel_columns) by (cbn; intuition discriminate). assert (N2 : In "Wavelength"%string channel_columns) by (cbn; auto). assert (N3 : In "WindowSize"%string channel_columns) by (cbn; auto 10).
  destruct (observed_rows channel_columns chs h s x g fs st I channel_columns_quiet N1 N2 N3 (skies_apart chs h AH) (seeing_apart _ _ _ _ _ _ _ _ chs M) FG GF LD US) as (y & T & O & XT & XS & V).
  destruct (observed_rows channel_columns chs' h' s x g fs st I' channel_columns_quiet N1 N2 N3 (skies_apart _ h' AH') (seeing_apart _ _ _ _ _ _ _ _ _ M') FG GF LD US') as (y' & T' & O' & XT' & XS' & V').
  exists chs, chs', y, y'. split; [auto|]. split; [auto|]. split. { clear -F2. induction F2 as [|a a' l l' [E _] F IH]; cbn; auto. now rewrite E, IH. }
  split; [auto|]. split; [auto|]. exists T, T'. split; [auto|]. split; [auto|]. intros name c IC.
  assert (AB : as_built channel_columns (name, c)) by (destruct I as (_ & _ & _ & _ & _ & AB); rewrite Forall_forall in AB; auto).
  destruct (F2_in_l _ _ _ _ F2 IC) as ([n c'] & IC' & EN & BI). cbn [fst snd] in *. subst n. pose proof BI as (B1 & B2' & B3 & B4 & B5 & B6 & B7 & B8). pose proof (seeing_sound _ _ _ _ _ _ _ _ _ _ _ M B IC) as SB0.
  destruct (US name c IC) as (_ & _ & dd & so & t0 & _ & _ & UO). pose proof UO as ((det & DE & PH) & _).
  destruct (V name c det IC DE PH) as (o & tf & total & SR). assert (DE' : describes (h_noise c') det) by (rewrite B4; exact DE). destruct (V' name c' det IC' DE' PH) as (o' & tf' & total' & SR').
  destruct (own_warmed channel_columns fs (st_sed st) (g_sky g) name c c' o SB0 BI AB (sr_own _ _ _ _ _ _ _ _ _ _ _ _ SR)) as (o2 & OW & NS & PCC & OT). assert (o2 = o') as -> by (pose proof (sr_own _ _ _ _ _ _ _ _ _ _ _ _ SR'); congruence).
  assert (SB : bins_of (name, c') = bins_of (name, c)) by (unfold bins_of; cbn [snd]; now rewrite B1).
  assert (SC : forall m, instrument_column m -> ordinary m /\ m <> "MaxSignal_inPixel"%string /\ loud (g_sky g) m = true).
  { intros m [->| ->]; (split; [apply ordinary_end; try reflexivity; discriminate|split; [discriminate|destruct (g_sky g); reflexivity]]). }
  assert (VAL : forall m i, value_at o m i <= value_at o' m i /\ (~ instrument_column m -> value_at o' m i = value_at o m i)).
  { intros m i. assert (ID : instrument_column m \/ ~ instrument_column m). { unfold instrument_column. destruct (string_dec m "instrument_signal"); [left; now left|]. destruct (string_dec m "instrument_MaxSignal_inPixel"); [left; now right|]. right. tauto. }
    destruct ID as [J|J]; [|unfold value_at, col_of; rewrite OT by auto; split; [lra|auto]]. split; [|contradiction]. destruct (PCC m J) as (u & v & G1 & G2 & NSM). unfold value_at, col_of. rewrite G1, G2. clear -NSM. revert i. unfold reals. induction NSM as [|a b la lb H F IH]; intros [|i]; cbn in *; auto; lra. }
  split; [|split].
  - intros m J. destruct (SC m J) as (Q1 & Q2 & Q3). destruct (PCC m J) as (u & v & G1 & G2 & NSM). exists u, v. split; [now apply (sr_shows _ _ _ _ _ _ _ _ _ _ _ _ SR)|]. split; [now apply (sr_shows _ _ _ _ _ _ _ _ _ _ _ _ SR')|exact NSM].
  - intros m v OM FR NT NP. apply fresh_loud in FR. rewrite XS in FR. rewrite (sr_shows _ _ _ _ _ _ _ _ _ _ _ _ SR), (sr_shows _ _ _ _ _ _ _ _ _ _ _ _ SR'), OT by auto. tauto.
  - apply (fuller_frames _ _ _ _ _ _ _ _ _ _ _ _ _ _ _ _ _ _ _ _ SR SR' B4 SB).
    + intros i _. unfold maxima. rewrite NS. generalize (filter (contains "Max") (names o)) as ms. induction ms as [|m ms IH]; cbn [sum_over]; [lra|]. pose proof (proj1 (VAL m i)). lra.
    + intros FX. assert (WI : In "WindowSize"%string (names o)) by now apply (sr_base _ _ _ _ _ _ _ _ _ _ _ _ SR).
      assert (SI : In "star_signal_inAperture"%string (names o)). { destruct (own_get _ _ _ _ _ _ AB (sr_own _ _ _ _ _ _ _ _ _ _ _ _ SR)) as (d1 & so1 & t1 & _ & _ & G). apply sget_names. rewrite G. assert (X : loud (g_sky g) "star_signal_inAperture" && smem "star_signal_inAperture" (star_columns so1) = true) by (unfold star_columns; destruct (o_sky so1), (g_sky g); reflexivity). rewrite X. unfold star_columns. destruct (o_sky so1); cbn; eauto. }
      apply (noisier_rows _ _ _ _ _ _ _ _ _ _ _ _ _ _ _ _ _ _ _ _ _ _ SR SR' B4 B5 SB NS WI SI 1 ltac:(lra) FX).
      * intros i _. apply VAL. intros [X|X]; discriminate.
      * intros m i J _ _. rewrite Rmult_1_l. apply VAL.
      * intros i _. rewrite Rmult_1_l. apply VAL. intros [X|X]; discriminate.
Qed.
Print Assumptions C126_warmer_optics.
(** The camera with the warm mirror of C123: its frame time is no longer. *)
Definition warm_camera : payload :=
  {| p_optics := Some {| o_elements := M_Optics.One warm_mirror; o_force := Some true; o_area := 3 |}; p_custom := None; p_channel := Some (Ordered [("phot"%string, auto_phot)]) |}.
Lemma camera_warmer : payload_warmer camera warm_camera.
Proof.
  split; [do 2 eexists; split; [reflexivity|]; split; [reflexivity|]; split; [reflexivity|]; split; [reflexivity|exact mirror_warmer]|]. split; [reflexivity|]. do 2 eexists. split; [reflexivity|]. split; [reflexivity|].
  constructor; [|constructor]. split; [reflexivity|]. exists (d_optics auto_phot). split; [reflexivity|]. exact Coq.Init.Logic.I.
Qed.
Example C126_warm_ex fuel : exists chs chs' y y' T T' m m' tf tf', build_channels sharp fuel camera = Some (Ok chs) /\ build_channels sharp fuel warm_camera = Some (Ok chs') /\
  snd (observe_target run3 chs vega) = Ok y /\ snd (observe_target run3 chs' vega) = Ok y' /\ x_table y = Some T /\ x_table y' = Some T' /\
  shows (cols T) "phot" "MaxSignal_inPixel" (reals m) /\ shows (cols T') "phot" "MaxSignal_inPixel" (reals m') /\ no_smaller m m' /\
  shows (cols T) "phot" "frameTime" (reals (map (fun _ => tf) m)) /\ shows (cols T') "phot" "frameTime" (reals (map (fun _ => tf') m')) /\ 0 < tf' <= tf.
Proof.
  destruct (C126_warmer_optics sharp fuel camera warm_camera _ run3 vega _ _ [] [] (camera_sees fuel) camera_warmer (Forall_nil _) (Forall_nil _)) as (chs & chs' & y & y' & B & B1 & _ & O & O' & T & T' & XT & XT' & X).
  destruct (channel_of sharp fuel camera [("phot"%string, auto_phot)] chs "phot" auto_phot eq_refl B (or_introl eq_refl)) as (c & IC).
  destruct (X "phot"%string c IC) as (_ & _ & ((m & m' & tf & tf' & M1 & M2 & M3 & F1 & F2 & L & _) & _)). exists chs, chs', y, y', T, T', m, m', tf, tf'. repeat (split; [assumption|]). exact L.
Qed.
