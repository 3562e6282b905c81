(** Warmer or more emissive optics (C123). *)
From Coq Require Import Reals Lra Psatz Lia.
From Verif Require Import Base Dict PyStr XR M_Signal M_Optics M_Light M_Bins M_Psf M_Omega M_Star M_Source M_Foreground S_Signal S_Optics S_Light S_Bins S_Star S_Success S_Foreground L_Signal L_Optics L_Light L_Bins P_Optics P_Bins P_Windows P_Light P_Success P_Omega P_Star P_Source P_Foreground.
From Verif Require M_Noise P_Noise L_Foreground S_Source P_Star.
From Verif Require Import S_Noise L_Noise.
From Verif Require Import M_Table L_Table P_Table M_Observe S_Observe L_Observe L_Stages L_Outcome S_Works S_Complete P_Observe P_Outcome P_Works P_Complete P_Instance M_Build S_Build S_Ready L_Build L_Ready P_Build P_Ready P_Mission P_Telescope S_Full P_Full S_Bright L_Bright P_Bright P_BrightMission L_Compare S_Area P_Area S_Glow L_Glow P_Glow S_Worse P_Worse S_Filter L_Filter P_Filter S_Faded L_Faded P_Faded S_Warm L_Warm.
Open Scope list_scope.

(** ** What a channel reports of its own *)
Lemma same_small v : no_smaller v v.
Proof. induction v; constructor; auto. lra. Qed.
Lemma upto_small a b : upto a b -> no_smaller a b.
Proof. induction 1; constructor; auto. lra. Qed.
Lemma own_warmed ns fs sed sky name c c' o : P_Light.sound (h_light c) -> warmed c c' -> as_built ns (name, c) -> own (Some fs) sed sky (name, c) = Ok o -> exists o', own (Some fs) sed sky (name, c') = Ok o' /\ names o' = names o /\
  (forall m, instrument_column m -> exists u v, sget m o = Some (reals u) /\ sget m o' = Some (reals v) /\ no_smaller u v) /\
  (forall m, ~ instrument_column m -> sget m o' = sget m o).
Proof.
  intros SB (B1 & B2 & B3 & B4 & B5 & B6 & B7 & B8) AB E. unfold own in *. cbn [snd] in *. unfold foreground_of in *. assert (EE : M_Observe.edges c' = M_Observe.edges c) by (unfold M_Observe.edges; rewrite B1; reflexivity). rewrite B3, EE.
  destruct (propagate_diffuse_foreground (h_light c) (M_Observe.edges c) (Some fs)) as [d|] eqn:D; cbn [bind] in *; [|discriminate]. unfold own_star in *. assert (PS : propagate_star c' None sed sky = propagate_star c None sed sky) by (unfold propagate_star; rewrite B1, B2; reflexivity). rewrite PS.
  destruct (propagate_star c None sed sky) as [[so t]|]; cbn [bind] in *; [|discriminate]. eexists. split; [reflexivity|]. injection E as <-. unfold base. cbn [snd].
  split; [rewrite !override_names, B6; reflexivity|]. split.
  - intros m IC. rewrite !override_get, !keep_get, !sget_table.
    assert (NS : sget m (star_columns so) = None). { unfold star_columns. destruct IC as [->| ->]; destruct (o_sky so); reflexivity. }
    rewrite NS. destruct (B7 m IC) as (u & v & V1 & V2 & UP). rewrite V1, V2. destruct (sget m d) as [z|]; cbn [option_map]; [exists z, z|exists u, v]; destruct (loud sky m); (split; [reflexivity|]); (split; [reflexivity|]); auto using same_small, upto_small.
  - intros m N. rewrite !override_get, !keep_get, !sget_table. rewrite B8; [reflexivity|intros ->; apply N; now left|intros ->; apply N; now right].
Qed.

(** ** The mission with other optics *)
Lemma warm_sensible d d' : sensible_element d -> warmer d d' -> sensible_element d'.
Proof.
  intros ((n & t & S1 & S2 & S3) & S4 & S5 & S6) (W & WT & WE & WD). split; [|split; [|split]].
  - exists n, t. rewrite !W by discriminate. split; auto. split; auto. intros T. destruct (S3 T) as (v & V). exists v. unfold says in *. now rewrite W by discriminate.
  - intros f F. destruct WT as [WT|(T & T' & V & V' & L)]; [rewrite WT in F; auto|]. rewrite V' in F. injection F as <-. exists T'. split; auto. destruct (S4 _ V) as (v & X & P). injection X as <-. lra.
  - intros k f K F. apply (S5 k f K). rewrite <- F. symmetry. apply W; destruct K as [->|[->| ->]]; discriminate.
  - destruct WD as [WD|(tb & tb' & V & V' & (EC & y & y' & Y & Y' & NS & Y1))].
    + rewrite WD. destruct (sget "data" d) as [[x|x|tb]|] eqn:SD; auto.
      * rewrite !W by discriminate. exact S6.
      * destruct S6 as (S6 & S7). rewrite !W by discriminate. split; auto. intros k f K F. destruct K as [K|[K|K]].
        -- apply (S7 k); auto. rewrite <- F. symmetry. subst. apply W; discriminate.
        -- apply (S7 k); auto. rewrite <- F. symmetry. subst. apply W; discriminate.
        -- subst k. destruct WE as [WE|(v & v' & A1 & A2 & L)]; [apply (S7 "emissivity"%string); auto; congruence|]. rewrite A2 in F. injection F as <-. exists v'. split; auto. destruct (S7 "emissivity"%string _ (or_intror (or_intror eq_refl)) A1) as (z & X & B). injection X as <-. lra.
    + rewrite V in S6. rewrite V'. rewrite !W by discriminate. destruct S6 as (U & WC & TR & (x & y0 & WV & NE & GY & LY & FY)). split; auto. split; auto.
      assert (WVE : forall x, wavelengths_of tb x -> wavelengths_of tb' x) by (intros z; unfold wavelengths_of; rewrite !EC by discriminate; auto).
      assert (UC : forall k, k <> "Emissivity"%string -> unit_column tb k -> unit_column tb' k). { intros k N (a & b & A1 & A2 & A3 & A4). exists a, b. rewrite EC by auto. auto. }
      split; [destruct TR as [TR|(T1 & T2)]; [left; apply UC; auto; discriminate|right; rewrite EC by discriminate; split; auto; apply UC; auto; discriminate]|].
      assert (y0 = y) as -> by congruence. exists x, y'. split; auto. split; auto. split; auto. split; [rewrite <- LY; symmetry; clear -NS; unfold no_smaller in NS; induction NS; cbn; congruence|].
      intros v I. split; [|auto]. destruct (F2_in _ _ _ _ NS I) as (a & J & L). specialize (FY a J). lra.
Qed.
Lemma warm_elements o o' : optics_warmer o o' -> forall e', element_of o' e' -> exists e, element_of o e /\ warmer e e'.
Proof.
  destruct o as [|d|ds], o' as [|d'|ds']; cbn; try tauto.
  - intros WM e' ->. eauto.
  - intros F e' (k & I). destruct (F2_in _ _ _ _ F I) as ([k0 e] & J & E & WM). cbn [fst snd] in *. exists e. split; [exists k0; auto|auto].
Qed.
Lemma warm_optics o o' : optics_warmer o o' -> sensible_optics o -> sensible_optics o'.
Proof. intros WM SO e' E. destruct (warm_elements _ _ WM e' E) as (e & EE & W). eapply warm_sensible; eauto. Qed.
Lemma warm_slit e e' v : warmer e e' -> slit_of e' v -> slit_of e v.
Proof. intros (W & _) (S1 & S2). unfold slit_of, says in *. rewrite W in S1 by discriminate. rewrite W in S2 by discriminate. auto. Qed.
Definition optics_of (p p' : payload) : Prop := exists o o', p_optics p = Some o /\ p_optics p' = Some o' /\ o_force o' = o_force o /\ o_area o' = o_area o /\ optics_warmer (o_elements o) (o_elements o').
Lemma warm_slits p p' d own v : optics_of p p' -> option_warmer (d_optics d) own -> has_slit p' (with_optics d own) v -> has_slit p d v.
Proof.
  intros (o & o' & P1 & P2 & _ & _ & WM) WO (q & e & A & EL & SL). destruct A as [A|A].
  - rewrite P2 in A. injection A as ->. destruct (warm_elements _ _ WM e EL) as (e0 & EE & W). exists (o_elements o), e0. rewrite P1. split; [now left|]. split; auto. eapply warm_slit; eauto.
  - cbn [with_optics d_optics] in A. subst own. destruct (d_optics d) as [ow|] eqn:DO; cbn [option_warmer] in WO; [|contradiction]. destruct (warm_elements _ _ WO e EL) as (e0 & EE & W). exists ow, e0. rewrite DO. split; [now right|]. split; auto. eapply warm_slit; eauto.
Qed.
Lemma common_warm w p p' name d own : optics_of p p' -> option_warmer (d_optics d) own -> complete_common w p name d -> complete_common w p' name (with_optics d own).
Proof.
  intros (o & o' & P1 & P2 & OF & OA & WM) WO (H1 & H2 & H3 & H4 & H5 & H6 & (o0 & ow & force & Q1 & Q2 & Q3 & Q4 & Q5 & Q6) & H8 & H9 & H10). assert (o0 = o) as -> by congruence. rewrite Q2 in WO. destruct own as [ow'|]; cbn [option_warmer] in WO; [|contradiction].
  unfold complete_common. cbn [with_optics d_from d_to M_Build.d_delta d_min d_max d_optics d_fx d_fy d_detector]. do 6 (split; [assumption|]). split.
  - exists o', ow', force. split; auto. split; auto. split; [congruence|]. split; [now rewrite OA|]. split; eapply warm_optics; eauto.
  - split; [exact H8|]. split; [exact H9|exact H10].
Qed.
Definition channels_of (l l' : list (string * description)) : Prop := Forall2 (fun nd nd' => fst nd' = fst nd /\ exists own, snd nd' = with_optics (snd nd) own /\ option_warmer (d_optics (snd nd)) own) l l'.
Lemma mission_warm w fuel p p' l l' s x f src : optics_of p p' -> p_custom p' = p_custom p -> p_channel p' = Some (Ordered l') -> channels_of l l' -> mission w fuel p l s x f src -> mission w fuel p' l' s x f src.
Proof.
  intros PO PC CH F (H1 & H2 & (H3 & H3') & H4 & H5 & H6 & H7 & H8 & H9 & H10). assert (FN : map fst l' = map fst l) by (clear -F; induction F as [|a b l l' (E & _) F IH]; cbn; congruence).
  assert (BACK : forall name d', In (name, d') l' -> exists d own, In (name, d) l /\ d' = with_optics d own /\ option_warmer (d_optics d) own). { intros name d' I. destruct (F2_in _ _ _ _ F I) as ([n d] & J & E & own & W1 & W2). cbn [fst snd] in *. subst. exists d, own. auto. }
  split; [exact CH|]. split; [intros ->; inversion F; subst; congruence|]. split; [split; [now rewrite FN|]|]. { intros name d' I. destruct (BACK _ _ I) as (d & q & J & -> & _). exact (H3' name d J). }
  split. { intros name d' r I. destruct (BACK _ _ I) as (d & q & J & -> & _). exact (H4 name d r J). }
  split. { intros name d' I. destruct (BACK _ _ I) as (d & own & J & -> & W). destruct (H5 name d J) as [C|C]; [left|right].
    - destruct C as (C1 & C2 & C3 & C4). split; [eapply common_warm; eauto|]. split; [exact C2|]. split; [intros v X; exact (C3 v (warm_slits _ _ _ _ _ PO W X))|exact C4].
    - destruct C as (C1 & C2 & C3 & C4 & ss & e & bins & wls & gg & D1 & D2 & D). split; [eapply common_warm; eauto|]. split; [exact C2|]. split; [exact C3|]. split; [exact C4|]. exists ss, e, bins, wls, gg. split; [exact D1|]. split; [exact D2|].
      cbv zeta in *. destruct D as (E1 & E2 & E3 & E4 & E5 & E6 & E7 & E8 & E9). do 8 (split; [assumption|]). intros v V. exact (E9 v (warm_slits _ _ _ _ _ PO W V)). }
  split. { intros name d' I. destruct (BACK _ _ I) as (d & q & J & -> & _). exact (H6 name d J). }
  split. { intros name d' wl I. destruct (BACK _ _ I) as (d & q & J & -> & _). exact (H7 name d wl J). }
  split; [now rewrite PC|]. split; [|exact H10]. intros name d' I. destruct (BACK _ _ I) as (d & q & J & -> & _). exact (H9 name d J).
Qed.
Lemma one_warm w fuel p p' name d own c c' : complete_common w p name d -> optics_of p p' -> p_custom p' = p_custom p -> option_warmer (d_optics d) own -> build_one w fuel p name d = Some (Ok c) -> build_one w fuel p' name (with_optics d own) = Some (Ok c') -> warmed c c'.
Proof.
  intros CC PO PC WO BO BO'. pose proof (built_inv _ _ _ _ _ _ BO) as (kk & z & CN & DC & BQ & O). pose proof (built_inv _ _ _ _ _ _ BO') as (kk' & z' & CN' & DC' & BQ' & O'). cbn [with_optics d_class] in CN'. assert (kk' = kk) as -> by congruence.
  assert (EZ : z' = z) by (destruct kk; [change (photometer_builder w fuel name (with_optics d own) []) with (photometer_builder w fuel name d []) in BQ'|change (spectrometer_builder w fuel name (with_optics d own) []) with (spectrometer_builder w fuel name d []) in BQ']; congruence). subst z'.
  assert (SH : shaped name z) by (destruct kk; [destruct (photometer_shaped _ _ _ _ _ BQ)|destruct (spectrometer_shaped _ _ _ _ _ BQ)]; auto).
  pose proof PO as (o & o' & P1 & P2 & OF & OA & WM). pose proof CC as (_ & _ & _ & _ & _ & _ & (o0 & ow & force & Q1 & Q2 & _) & _). rewrite Q2 in WO. destruct own as [ow'|]; cbn [option_warmer] in WO; [|contradiction].
  eapply (path_warmed w p p' o o' d ow ow'); eauto.
Qed.
Lemma channels_warm w fuel p p' l l' : optics_of p p' -> p_custom p' = p_custom p -> channels_of l l' -> (forall name d, In (name, d) l -> complete_common w p name d) -> forall chs chs', build_all w fuel p l = Some (Ok chs) -> build_all w fuel p' l' = Some (Ok chs') -> Forall2 (fun a a' => fst a' = fst a /\ warmed (snd a) (snd a')) chs chs'.
Proof.
  intros PO PC F. induction F as [|[n d] [n' d'] l l' (EN & own & ED & WO) F IH]; intros CC chs chs' E E'; cbn [build_all] in *. { injection E as <-. injection E' as <-. constructor. }
  cbn [fst snd] in *. subst. destruct (build_one w fuel p n d) as [[c|]|] eqn:BO; cbn [andthen] in *; try discriminate. destruct (build_one w fuel p' n (with_optics d own)) as [[c'|]|] eqn:BO'; cbn [andthen] in *; try discriminate.
  destruct (build_all w fuel p l) as [[cs|]|]; cbn [andthen] in *; try discriminate. destruct (build_all w fuel p' l') as [[cs'|]|]; cbn [andthen] in *; try discriminate. injection E as <-. injection E' as <-. constructor; [split; [reflexivity|]|].
  - cbn [snd]. eapply one_warm; eauto. apply CC. now left.
  - apply IH; auto. intros name d0 I. apply CC. now right.
Qed.
(** The light a channel lets through is that of a sensible channel. *)
Lemma mission_sound w fuel p l s x f src chs name c : mission w fuel p l s x f src -> build_channels w fuel p = Some (Ok chs) -> In (name, c) chs -> P_Light.sound (h_light c).
Proof.
  intros (C & NE & NM & RP & CO & FF & IR & VP & VD & U1 & U2 & V & N & _) B IC. destruct (C96_complete_payload_builds w fuel p l C NE NM RP CO) as (chs' & B' & _ & F). assert (chs' = chs) as -> by congruence.
  assert (WGr : working_grid (y_R s) (y_min s) (y_max s) = Ok (logspace (value (y_min s)) (value (y_max s)) (y_R s))) by (unfold working_grid, um_of; rewrite U1, U2, !Rmult_1_r; reflexivity).
  pose proof (L_Foreground.grid_spec _ _ _ _ WGr) as GG. unfold S_Source.microns in GG. rewrite U1, U2, !Rmult_1_r in GG.
  destruct (F2_in _ _ _ _ F IC) as ([n d] & ID & EN & _ & W). cbn [fst snd] in *. subst. destruct (W _ (IR n d _ ID GG)) as (_ & DL & _). destruct DL as (D1 & D2 & D3 & D4 & _ & _ & _ & D5 & D6 & D7 & _). unfold P_Light.sound. auto 10.
Qed.

(** ** C123: warmer or more emissive optics *)
(** The estimate [y'] with warmer optics than for [y]: more light of the instrument, higher peaks,
    nothing else different but the noise, which is nowhere smaller *)
Definition as_warm (chs : channels) (y y' : target) : Prop :=
  exists T T', x_table y = Some T /\ x_table y' = Some T' /\
  forall ch c, In (ch, c) chs ->
    (forall m, instrument_column m \/ m = "MaxSignal_inPixel"%string -> exists u v, shows (cols T) ch m (reals u) /\ shows (cols T') ch m (reals v) /\ no_smaller u v) /\
    (forall m v, ordinary m \/ m = "frameTime"%string -> fresh_column y m -> m <> "MaxSignal_inPixel"%string -> ~ instrument_column m -> shows (cols T') ch m v <-> shows (cols T) ch m v) /\
    exists z z', shows (cols T) ch "total_noise" (map Num z) /\ shows (cols T') ch "total_noise" (map Num z') /\ Forall2 no_better z z'.
Theorem C123_warmer_optics : forall w fuel p p' l s x sky src h h', mission w fuel p l s x sky src -> payload_warmer p p' ->
  Forall (fun sx => no_instrument_in_the_sky (fst sx) (snd sx)) h -> Forall (fun sx => no_instrument_in_the_sky (fst sx) (snd sx)) h' ->
  exists chs chs' y y', build_channels w fuel p = Some (Ok chs) /\ build_channels w fuel p' = Some (Ok chs') /\ map fst chs' = map fst chs /\
    snd (observe_target s (after chs h) x) = Ok y /\ snd (observe_target s (after chs' h') x) = Ok y' /\ as_warm chs y y'.
Proof.
  intros w fuel p p' l s x sky src h h' M (PO & PC & l0 & l' & CH & CH' & FL) AH AH'. assert (l0 = l) as -> by (destruct M as (C & _); congruence). fold (optics_of p p') in PO. pose proof (mission_warm w fuel p p' l l' s x sky src PO PC CH' FL M) as M'.
  destruct (mission_ready _ _ _ _ _ _ _ _ M) as (chs & st & g & fs & B & I & HN & LD & FG & GF & US). destruct (mission_ready _ _ _ _ _ _ _ _ M') as (chs' & st' & g' & fs' & B' & I' & _ & LD' & FG' & GF' & US').
  pose proof M as (_ & _ & _ & _ & CO & FF & _).
  assert (BA := B). unfold build_channels in BA. rewrite CH in BA. assert (BA' := B'). unfold build_channels in BA'. rewrite CH' in BA'. assert (CCO : forall name d, In (name, d) l -> complete_common w p name d) by (intros name d ID; destruct (CO name d ID) as [X|X]; apply X).
  pose proof (channels_warm w fuel p p' l l' PO PC FL CCO chs chs' BA BA') as F2.
  rewrite LD in LD'. injection LD' as <-. rewrite FG in FG'. injection FG' as <-. rewrite GF in GF'. injection GF' as <-.
  assert (N1 : ~ In "MaxSignal_inPixel"%string channel_columns) by (cbn; intuition discriminate). assert (N2 : In "Wavelength"%string channel_columns) by (cbn; auto). assert (N3 : In "WindowSize"%string channel_columns) by (cbn; auto 10).
  destruct (observed_rows channel_columns chs h s x g fs st I channel_columns_quiet N1 N2 N3 (skies_apart chs h AH) (mission_apart _ _ _ _ _ _ _ _ chs M) FG GF LD US) as (y & T & O & XT & XS & V).
  destruct (observed_rows channel_columns chs' h' s x g fs st I' channel_columns_quiet N1 N2 N3 (skies_apart _ h' AH') (mission_apart _ _ _ _ _ _ _ _ _ M') FG GF LD US') as (y' & T' & O' & XT' & XS' & V').
  exists chs, chs', y, y'. split; [auto|]. split; [auto|]. split. { clear -F2. induction F2 as [|a a' l l' [E _] F IH]; cbn; auto. now rewrite E, IH. }
  split; [auto|]. split; [auto|]. exists T, T'. split; [auto|]. split; [auto|]. intros name c IC.
  assert (AB : as_built channel_columns (name, c)) by (destruct I as (_ & _ & _ & _ & _ & AB); rewrite Forall_forall in AB; auto).
  destruct (F2_in_l _ _ _ _ F2 IC) as ([n c'] & IC' & EN & BI). cbn [fst snd] in *. subst n. pose proof BI as (B1 & B2' & B3 & B4 & B5 & B6 & B7 & B8). pose proof (mission_sound _ _ _ _ _ _ _ _ _ _ _ M B IC) as SB0.
  destruct (US name c IC) as (_ & _ & dd & so & t0 & _ & _ & UO). pose proof UO as ((det & DE & PH) & _).
  destruct (V name c det IC DE PH) as (o & tf & total & SR). assert (DE' : describes (h_noise c') det) by (rewrite B4; exact DE). destruct (V' name c' det IC' DE' PH) as (o' & tf' & total' & SR').
  destruct (own_warmed channel_columns fs (st_sed st) (g_sky g) name c c' o SB0 BI AB (sr_own _ _ _ _ _ _ _ _ _ _ _ _ SR)) as (o2 & OW & NS & PCC & OT). assert (o2 = o') as -> by (pose proof (sr_own _ _ _ _ _ _ _ _ _ _ _ _ SR'); congruence).
  assert (FX : M_Noise.fixed_frame_time (h_noise c) <> None). { destruct (HN name c IC) as (d & ID & ->). destruct (FF name d ID) as (r & -> & _). discriminate. }
  assert (TF : tf' = tf). { pose proof (sr_frame _ _ _ _ _ _ _ _ _ _ _ _ SR) as A1. pose proof (sr_frame _ _ _ _ _ _ _ _ _ _ _ _ SR') as A2. rewrite B4 in A2. destruct (M_Noise.fixed_frame_time (h_noise c)); congruence. } subst tf'.
  assert (SB : bins_of (name, c') = bins_of (name, c)) by (unfold bins_of; cbn [snd]; now rewrite B1).
  assert (SC : forall m, instrument_column m -> ordinary m /\ m <> "MaxSignal_inPixel"%string /\ loud (g_sky g) m = true).
  { intros m [->| ->]; (split; [apply ordinary_end; try reflexivity; discriminate|split; [discriminate|destruct (g_sky g); reflexivity]]). }
  assert (VAL : forall m i, value_at o m i <= value_at o' m i /\ (~ instrument_column m -> value_at o' m i = value_at o m i)).
  { intros m i. assert (ID : instrument_column m \/ ~ instrument_column m). { unfold instrument_column. destruct (string_dec m "instrument_signal"); [left; now left|]. destruct (string_dec m "instrument_MaxSignal_inPixel"); [left; now right|]. right. tauto. }
    destruct ID as [J|J]; [|unfold value_at, col_of; rewrite OT by auto; split; [lra|auto]]. split; [|contradiction]. destruct (PCC m J) as (u & v & G1 & G2 & NSM). unfold value_at, col_of. rewrite G1, G2. clear -NSM. revert i. unfold reals. induction NSM as [|a b la lb H F IH]; intros [|i]; cbn in *; auto; lra. }
  split; [|split].
  - intros m [J|J].
    + destruct (SC m J) as (Q1 & Q2 & Q3). destruct (PCC m J) as (u & v & G1 & G2 & NSM). exists u, v. split; [now apply (sr_shows _ _ _ _ _ _ _ _ _ _ _ _ SR)|]. split; [now apply (sr_shows _ _ _ _ _ _ _ _ _ _ _ _ SR')|exact NSM].
    + subst m. exists (map (maxima o) (List.seq 0 (bins_of (name, c)))), (map (maxima o') (List.seq 0 (bins_of (name, c)))). rewrite <- !numbers_reals. split; [exact (sr_max _ _ _ _ _ _ _ _ _ _ _ _ SR)|]. split; [pose proof (sr_max _ _ _ _ _ _ _ _ _ _ _ _ SR') as X; rewrite SB in X; exact X|].
      unfold no_smaller. apply seq_F2. intros i _. unfold maxima. rewrite NS. generalize (filter (contains "Max") (names o)) as ms. induction ms as [|m ms IH]; cbn [sum_over]; [lra|]. pose proof (proj1 (VAL m i)). lra.
  - intros m v OM FR NT NP. apply fresh_loud in FR. rewrite XS in FR. destruct OM as [OM| ->].
    + rewrite (sr_shows _ _ _ _ _ _ _ _ _ _ _ _ SR), (sr_shows _ _ _ _ _ _ _ _ _ _ _ _ SR'), OT by auto. tauto.
    + pose proof (sr_frame_shown _ _ _ _ _ _ _ _ _ _ _ _ SR) as A1. pose proof (sr_frame_shown _ _ _ _ _ _ _ _ _ _ _ _ SR') as A2. rewrite SB in A2. split; intros X; [rewrite (shows_fun _ _ _ _ _ X A2); exact A1|rewrite (shows_fun _ _ _ _ _ X A1); exact A2].
  - assert (WI : In "WindowSize"%string (names o)) by now apply (sr_base _ _ _ _ _ _ _ _ _ _ _ _ SR).
    assert (SI : In "star_signal_inAperture"%string (names o)). { destruct (own_get _ _ _ _ _ _ AB (sr_own _ _ _ _ _ _ _ _ _ _ _ _ SR)) as (d1 & so1 & t1 & _ & _ & G). apply sget_names. rewrite G. assert (X : loud (g_sky g) "star_signal_inAperture" && smem "star_signal_inAperture" (star_columns so1) = true) by (unfold star_columns; destruct (o_sky so1), (g_sky g); reflexivity). rewrite X. unfold star_columns. destruct (o_sky so1); cbn; eauto. }
    apply (noisier_rows _ _ _ _ _ _ _ _ _ _ _ _ _ _ _ _ _ _ _ _ _ _ SR SR' B4 B5 SB NS WI SI 1 ltac:(lra) FX).
    + intros i _. apply VAL. intros [X|X]; discriminate.
    + intros m i J _ _. rewrite Rmult_1_l. apply VAL.
    + intros i _. rewrite Rmult_1_l. apply VAL. intros [X|X]; discriminate.
Qed.
Print Assumptions C123_warmer_optics.
(** The telescope, its mirror at 200 K instead of 80 K and three times as emissive, looking at Vega *)
Definition warm_mirror : descr := [("value", M_Optics.Txt "M1"); ("type", M_Optics.Txt "surface"); ("reflectivity", M_Optics.Num 0.9); ("emissivity", M_Optics.Num 0.3); ("temperature", M_Optics.Num 200)]%string.
Definition warm_telescope : payload :=
  {| p_optics := Some {| o_elements := M_Optics.One warm_mirror; o_force := Some true; o_area := 3 |}; p_custom := None; p_channel := Some (Ordered [("phot"%string, phot); ("spec"%string, spec)]) |}.
Lemma mirror_warmer : warmer mirror warm_mirror.
Proof.
  split; [|split; [|split]].
  - intros k N1 N2 N3. unfold mirror, warm_mirror. cbn. repeat match goal with |- context [String.eqb k ?a] => destruct (String.eqb_spec k a); [try reflexivity; congruence|] end. reflexivity.
  - right. exists 80, 200. split; [reflexivity|]. split; [reflexivity|lra].
  - right. exists 0.1, 0.3. split; [reflexivity|]. split; [reflexivity|lra].
  - left. reflexivity.
Qed.
Lemma itself_warmer d : warmer d d.
Proof. split; [auto|]. split; [now left|]. split; now left. Qed.
Lemma telescope_warmer : payload_warmer telescope warm_telescope.
Proof.
  split; [do 2 eexists; split; [reflexivity|]; split; [reflexivity|]; split; [reflexivity|]; split; [reflexivity|exact mirror_warmer]|]. split; [reflexivity|]. do 2 eexists. split; [reflexivity|]. split; [reflexivity|].
  constructor; [|constructor; [|constructor]]; (split; [reflexivity|]); [exists (d_optics phot)|exists (d_optics spec)]; (split; [reflexivity|]); cbn; auto. apply itself_warmer.
Qed.
Example C123_ex fuel h : Forall (fun sx => sx = (run, vega)) h ->
  exists chs chs' y y' T T' u v z z', build_channels sharp fuel telescope = Some (Ok chs) /\ build_channels sharp fuel warm_telescope = Some (Ok chs') /\
  snd (observe_target run (after chs h) vega) = Ok y /\ snd (observe_target run (after chs' []) vega) = Ok y' /\ x_table y = Some T /\ x_table y' = Some T' /\
  shows (cols T) "spec" "instrument_signal" (reals u) /\ shows (cols T') "spec" "instrument_signal" (reals v) /\ no_smaller u v /\
  shows (cols T) "spec" "total_noise" (map Num z) /\ shows (cols T') "spec" "total_noise" (map Num z') /\ Forall2 no_better z z'.
Proof.
  intros H. destruct (C123_warmer_optics sharp fuel telescope warm_telescope _ run vega _ _ h [] (vega_mission fuel) telescope_warmer (sky_known _ H) (Forall_nil _)) as (chs & chs' & y & y' & B & B1 & _ & O & O' & T & T' & XT & XT' & X).
  destruct (a_telescope fuel) as (a & b & B' & _). assert (chs = [("phot"%string, a); ("spec"%string, b)]) as -> by congruence.
  destruct (X "spec"%string b) as (X1 & _ & z & z' & Z1 & Z2 & Z3); [right; now left|]. destruct (X1 "instrument_signal"%string) as (u & v & U1 & U2 & U3); [left; now left|].
  eexists _, chs', y, y', T, T', u, v, z, z'. split; [exact B|]. repeat (split; [assumption|]). assumption.
Qed.
