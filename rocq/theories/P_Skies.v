(** A brighter foreground and automatic frame times (C126). *)
From Coq Require Import Reals Lra Psatz Lia.
From Verif Require Import Base Dict PyStr XR M_Signal M_Optics M_Light M_Bins M_Psf M_Omega M_Star M_Source M_Foreground S_Signal S_Optics S_Light S_Bins S_Star S_Success S_Foreground L_Signal L_Optics L_Light L_Bins P_Optics P_Bins P_Windows P_Light P_Success P_Omega P_Star P_Source P_Foreground.
From Verif Require M_Noise P_Noise L_Foreground S_Source P_Star.
From Verif Require Import S_Noise L_Noise.
From Verif Require Import M_Table L_Table P_Table M_Observe S_Observe L_Observe L_Stages L_Outcome S_Works S_Complete P_Observe P_Outcome P_Works P_Complete P_Instance M_Build S_Build S_Ready L_Build L_Ready P_Build P_Ready P_Mission P_Telescope S_Full P_Full S_Bright L_Bright P_Bright P_BrightMission L_Compare S_Area P_Area S_Glow L_Glow P_Glow S_Worse P_Worse S_Filter L_Filter P_Filter S_Faded L_Faded P_Faded S_Seen L_Seen P_Seen P_Auto P_Framed.
Open Scope list_scope.
Open Scope R_scope.

(** What changes in a channel when a foreground is [k] times as bright: the fullest pixels and the inverse
    of the frame time by a factor between 1 and [k]; fixed frame times do not change, and with them more
    foreground is no less noise. *)
Definition frames_glow (k : R) (c : chan) (T T' : table) (name : string) : Prop :=
  (exists m m' tf tf', shows T name "MaxSignal_inPixel" (reals m) /\ shows T' name "MaxSignal_inPixel" (reals m') /\ Forall2 (fun a b => Rmin 1 k * a <= b <= Rmax 1 k * a) m m' /\
     shows T name "frameTime" (reals (map (fun _ => tf) m)) /\ shows T' name "frameTime" (reals (map (fun _ => tf') m)) /\ 0 < tf /\ tf / Rmax 1 k <= tf' <= tf / Rmin 1 k /\
     (M_Noise.fixed_frame_time (h_noise c) <> None -> tf' = tf)) /\
  (M_Noise.fixed_frame_time (h_noise c) <> None -> exists z z', shows T name "total_noise" (map Num z) /\ shows T' name "total_noise" (map Num z') /\ (1 <= k -> Forall2 no_better z z') /\ (k <= 1 -> Forall2 no_better z' z)).
Lemma moved_frames q s s' g g' fs fs' st st' T T' name c c' o o' det tf tf' total total' : seen_rows channel_columns s g fs st T name c o det tf total -> seen_rows channel_columns s' g' fs' st' T' name c' o' det tf' total' ->
  h_noise c' = h_noise c -> bins_of (name, c') = bins_of (name, c) -> 0 < q -> (forall i, (i < bins_of (name, c))%nat -> Rmin 1 q * maxima o i <= maxima o' i <= Rmax 1 q * maxima o i) ->
  exists m m' tf tf', shows T name "MaxSignal_inPixel" (reals m) /\ shows T' name "MaxSignal_inPixel" (reals m') /\ Forall2 (fun a b => Rmin 1 q * a <= b <= Rmax 1 q * a) m m' /\
     shows T name "frameTime" (reals (map (fun _ => tf) m)) /\ shows T' name "frameTime" (reals (map (fun _ => tf') m)) /\ 0 < tf /\ tf / Rmax 1 q <= tf' <= tf / Rmin 1 q /\
     (M_Noise.fixed_frame_time (h_noise c) <> None -> tf' = tf).
Proof.
  intros SR SR' SN SB Q ML. pose proof (sr_detector _ _ _ _ _ _ _ _ _ _ _ _ SR) as PH0.
  assert (MN : 0 < Rmin 1 q) by (apply Rmin_pos; lra). assert (MX : 0 < Rmax 1 q) by (pose proof (Rmax_l 1 q); lra). pose proof (Rmin_l 1 q) as m1. pose proof (Rmax_l 1 q) as x1.
  exists (map (maxima o) (List.seq 0 (bins_of (name, c)))), (map (maxima o') (List.seq 0 (bins_of (name, c)))), tf, tf'. rewrite !map_map, <- !numbers_reals.
  split; [exact (sr_max _ _ _ _ _ _ _ _ _ _ _ _ SR)|]. split; [rewrite <- SB; exact (sr_max _ _ _ _ _ _ _ _ _ _ _ _ SR')|]. split; [now apply seq_F2|].
  split; [exact (sr_frame_shown _ _ _ _ _ _ _ _ _ _ _ _ SR)|]. split; [rewrite <- SB; exact (sr_frame_shown _ _ _ _ _ _ _ _ _ _ _ _ SR')|]. pose proof (sr_tf _ _ _ _ _ _ _ _ _ _ _ _ SR) as TP. split; [exact TP|].
  pose proof (sr_frame _ _ _ _ _ _ _ _ _ _ _ _ SR) as FA. pose proof (sr_frame _ _ _ _ _ _ _ _ _ _ _ _ SR') as FB. rewrite SN, SB in FB. destruct (M_Noise.fixed_frame_time (h_noise c)) as [ft|].
  + rewrite FA in FB. injection FB as <-. split; [|auto]. split.
    * apply (Rmult_le_reg_r (Rmax 1 q)); [auto|]. replace (tf / Rmax 1 q * Rmax 1 q) with tf by (field; lra). nra.
    * apply (Rmult_le_reg_r (Rmin 1 q)); [auto|]. replace (tf / Rmin 1 q * Rmin 1 q) with tf by (field; lra). nra.
  + split; [|congruence]. destruct PH0 as (_ & PWw & PFf & _). eapply frames_between; eauto. nra.
Qed.

(** The estimate [y'] under a sky where [name] is [k] times as bright, whatever the frame times *)
Definition as_glowing_framed (name : string) (k : R) (chs : channels) (y y' : target) : Prop :=
  exists T T', x_table y = Some T /\ x_table y' = Some T' /\
  forall ch c, In (ch, c) chs ->
    (forall m, glow_column name m -> exists v, shows (cols T) ch m (reals v) /\ shows (cols T') ch m (reals (map (fun a => a * k) v))) /\
    (forall m v, ordinary m -> fresh_column y m -> m <> "MaxSignal_inPixel"%string -> ~ glow_column name m -> shows (cols T') ch m v <-> shows (cols T) ch m v) /\
    frames_glow k c (cols T) (cols T') ch.
Theorem C126_brighter_foreground : forall w fuel p l s x f f' src h h' name k, seeing_mission w fuel p l s x f src -> sky_brighter name k f f' -> name <> "star"%string -> 0 < k ->
  Forall (fun sx => no_instrument_in_the_sky (fst sx) (snd sx)) h -> Forall (fun sx => no_instrument_in_the_sky (fst sx) (snd sx)) h' ->
  exists chs y y', build_channels w fuel p = Some (Ok chs) /\ snd (observe_target s (after chs h) x) = Ok y /\ snd (observe_target (with_foregrounds s f') (after chs h') x) = Ok y' /\ as_glowing_framed name k chs y y'.
Proof.
  intros w fuel p l s x f f' src h h' name k M SB NS K AH AH'. set (s' := with_foregrounds s f').
  destruct (seeing_ready _ _ _ _ _ _ _ _ M) as (chs & st & g & fs & B & I & LD & FG & GF & _ & _ & _ & _ & _ & _ & _ & _ & US). pose proof (Rlt_le _ _ K) as K0.
  pose proof M as (_ & _ & _ & _ & _ & _ & _ & _ & _ & _ & _ & _ & _ & YF & SF & GS & GX & _ & _ & _ & _ & _ & NX & _).
  assert (EF := FG). unfold foregrounds_of in EF. rewrite YF in EF. destruct (sky_is_brighter name k _ _ _ _ f f' (x_sky x) g SF SB GX EF) as [FG' (fs0 & F0 & IN)]. rewrite GF in F0. injection F0 as <-.
  assert (GF' : g_foreground (lit_t name k g) = Some (sky_lit name k fs)) by (cbn [lit_t g_foreground]; now rewrite GF).
  assert (US' : forall ch c, In (ch, c) chs -> Forall valid_entry (entries (h_common c)) /\ Forall valid_entry (entries (M_Noise.ch_custom (h_noise c))) /\
     exists d o t, propagate_diffuse_foreground (h_light c) (M_Observe.edges c) (Some (sky_lit name k fs)) = Ok d /\ propagate_star c None (st_sed st) (g_sky (lit_t name k g)) = Ok (o, t) /\ usable c d o).
  { intros ch c IC. destruct (US ch c IC) as (A1 & A2 & d & o & t & D & P & U). split; auto. split; auto. exists (tint name k d), o, t. rewrite diffuse_tint, D by auto. split; auto. split; [exact P|]. destruct U as (U1 & U2 & U3 & U4). split; auto. split; auto. split; auto.
    intros c0 v. unfold tint. rewrite (map_get (fun c => scaled (colf name k c))). destruct (sget c0 d) as [v0|] eqn:G; cbn [option_map]; [|discriminate]. intros [= <-] r R. unfold scaled in R. apply in_map_iff in R as (r0 & <- & R). apply Rmult_le_pos; [eapply U3; eauto|now apply colf_pos]. }
  assert (AP' : columns_apart channel_columns chs s' x). { intros _ g' G'. assert (g' = lit_t name k g) as -> by (change (foregrounds_of s' (x_sky x)) with (estimate_foregrounds (y_maps s) (y_R s) (y_min s) (y_max s) f' (x_sky x)) in G'; congruence). apply foreign_columns. rewrite GF'. intros fs' [= <-]. rewrite sky_lit_names. eapply NX; eauto. }
  assert (N1 : ~ In "MaxSignal_inPixel"%string channel_columns) by (cbn; intuition discriminate). assert (N2 : In "Wavelength"%string channel_columns) by (cbn; auto). assert (N3 : In "WindowSize"%string channel_columns) by (cbn; auto 10).
  destruct (observed_rows channel_columns chs h s x g fs st I channel_columns_quiet N1 N2 N3 (skies_apart chs h AH) (seeing_apart _ _ _ _ _ _ _ _ chs M) FG GF LD US) as (y & T & O & XT & XS & V).
  destruct (observed_rows channel_columns chs h' s' x (lit_t name k g) (sky_lit name k fs) st I channel_columns_quiet N1 N2 N3 (skies_apart _ h' AH') AP' FG' GF' LD US') as (y' & T' & O' & XT' & XS' & V').
  exists chs, y, y'. split; [auto|]. split; [auto|]. split; [auto|]. exists T, T'. split; [auto|]. split; [auto|]. intros ch c IC.
  assert (AB : as_built channel_columns (ch, c)) by (destruct I as (_ & _ & _ & _ & _ & AB); rewrite Forall_forall in AB; auto).
  destruct (US ch c IC) as (_ & _ & dd & so & t0 & _ & PS & UO). pose proof UO as ((det & DE & PH) & _).
  destruct (V ch c det IC DE PH) as (o & tf & total & SR). destruct (V' ch c det IC DE PH) as (o' & tf' & total' & SR').
  destruct (own_glow channel_columns name k fs (st_sed st) (g_sky g) (ch, c) o K0 NS IN AB (sr_own _ _ _ _ _ _ _ _ _ _ _ _ SR)) as (o2 & OW & NO & PC & OT). assert (o2 = o') as -> by (pose proof (sr_own _ _ _ _ _ _ _ _ _ _ _ _ SR') as X; cbn [lit_t g_sky] in X; congruence).
  assert (SC : forall m, glow_column name m -> ordinary m /\ m <> "MaxSignal_inPixel"%string /\ loud (g_sky g) m = true).
  { intros m J. assert (X : forall u, ends_with "_signal" u = false -> ends_with "_MaxSignal_inPixel" u = false -> m <> u) by (intros u W1 W2; destruct J as [->| ->]; now apply suffix_not).
    split; [|split; [apply X; reflexivity|]].
    - destruct J as [->| ->]; apply ordinary_suffix; auto.
    - unfold loud. assert (Y1 := X "sky TR"%string eq_refl eq_refl). assert (Y2 := X "foreground_transmission"%string eq_refl eq_refl). apply String.eqb_neq in Y1. apply String.eqb_neq in Y2. rewrite Y1, Y2. now destruct (g_sky g). }
  split; [|split].
  - intros m J. destruct (SC m J) as (Q1 & Q2 & Q3). destruct (PC m J) as (v & G1 & G2). exists v. split; [now apply (sr_shows _ _ _ _ _ _ _ _ _ _ _ _ SR)|now apply (sr_shows _ _ _ _ _ _ _ _ _ _ _ _ SR')].
  - intros m v OM FR NT NP. apply fresh_loud in FR. rewrite XS in FR. rewrite (sr_shows _ _ _ _ _ _ _ _ _ _ _ _ SR), (sr_shows _ _ _ _ _ _ _ _ _ _ _ _ SR'), OT by auto. tauto.
  - assert (VAL : forall m, (glow_column name m /\ forall i, value_at o' m i = k * value_at o m i) \/ (~ glow_column name m /\ forall i, value_at o' m i = value_at o m i)).
    { intros m. destruct (glow_dec name m) as [J|J]; [left|right]; (split; [exact J|]).
      - destruct (PC m J) as (v & G1 & G2). eapply value_star; eauto.
      - intros i. unfold value_at, col_of. now rewrite OT. }
    assert (SAME : forall u, ends_with "_signal" u = false -> ends_with "_MaxSignal_inPixel" u = false -> forall i, value_at o' u i = value_at o u i).
    { intros u W1 W2. destruct (VAL u) as [[J _]|[_ E]]; [|exact E]. destruct J as [->| ->]; exfalso; [now apply (suffix_not name "_signal" _ W1)|now apply (suffix_not name "_MaxSignal_inPixel" _ W2)]. }
    assert (WI : In "WindowSize"%string (names o)) by now apply (sr_base _ _ _ _ _ _ _ _ _ _ _ _ SR).
    assert (SI : In "star_signal_inAperture"%string (names o)). { destruct (own_get _ _ _ _ _ _ AB (sr_own _ _ _ _ _ _ _ _ _ _ _ _ SR)) as (d1 & s1 & t1 & _ & _ & G). apply sget_names. rewrite G. unfold star_columns. destruct (g_sky g), (o_sky s1); cbn; eauto. }
    assert (EW := SAME "WindowSize"%string eq_refl eq_refl). assert (ES := SAME "star_signal_inAperture"%string eq_refl eq_refl).
    split.
    { apply (moved_frames k _ _ _ _ _ _ _ _ _ _ _ _ _ _ _ _ _ _ _ _ SR SR' eq_refl eq_refl K). intros i L. unfold maxima. rewrite NO, <- !sum_over_times. pose proof (Rmin_l 1 k) as m1. pose proof (Rmin_r 1 k) as m2. pose proof (Rmax_l 1 k) as x1. pose proof (Rmax_r 1 k) as x2.
      split; apply sum_over_le; intros m J; apply filter_In in J as [J1 J2]; pose proof (sr_pos _ _ _ _ _ _ _ _ _ _ _ _ SR m i J1 (or_intror (or_introl J2)) L); (destruct (VAL m) as [[_ E]|[_ E]]; rewrite E; nra). }
    intros FX. assert (UP : 1 <= k -> exists z z', shows (cols T) ch "total_noise" (map Num z) /\ shows (cols T') ch "total_noise" (map Num z') /\ Forall2 no_better z z').
    { intros L. apply (noisier_rows _ _ _ _ _ _ _ _ _ _ _ _ _ _ _ _ _ _ _ _ _ _ SR SR' eq_refl eq_refl eq_refl NO WI SI 1); auto; try lra.
      - intros m i J S L'. pose proof (sr_pos _ _ _ _ _ _ _ _ _ _ _ _ SR m i J (or_introl S) L'). destruct (VAL m) as [[_ E]|[_ E]]; rewrite E; nra.
      - intros i _. rewrite ES. ring. }
    assert (DN : k <= 1 -> exists z z', shows (cols T) ch "total_noise" (map Num z) /\ shows (cols T') ch "total_noise" (map Num z') /\ Forall2 no_better z' z).
    { intros L. destruct (noisier_rows _ _ _ _ _ _ _ _ _ _ _ _ _ _ _ _ _ _ _ _ _ _ SR' SR eq_refl eq_refl eq_refl (eq_sym NO)) with (q := 1) as (u & u' & U1 & U2 & U3); auto; try lra.
      - now rewrite NO. - now rewrite NO.
      - intros m i J S L'. rewrite NO in J. pose proof (sr_pos _ _ _ _ _ _ _ _ _ _ _ _ SR m i J (or_introl S) L'). destruct (VAL m) as [[_ E]|[_ E]]; rewrite E; nra.
      - intros i _. rewrite ES. ring.
      - exists u', u. auto. }
    assert (INJ : forall a b : list xr, map Num a = map Num b -> a = b). { clear. induction a as [|v a IH]; intros [|v' b]; cbn; try discriminate; auto. intros [= -> E]. f_equal. auto. }
    destruct (Rle_lt_dec 1 k) as [L|L].
    + destruct (UP L) as (z & z' & Z1 & Z2 & Z3). exists z, z'. split; [auto|]. split; [auto|]. split; [auto|]. intros L'. destruct (DN L') as (u & u' & U1 & U2 & U3). rewrite (INJ _ _ (shows_fun _ _ _ _ _ Z1 U1)), (INJ _ _ (shows_fun _ _ _ _ _ Z2 U2)). exact U3.
    + destruct (DN ltac:(lra)) as (u & u' & U1 & U2 & U3). exists u, u'. split; [auto|]. split; [auto|]. split; [intros; lra|auto].
Qed.
Print Assumptions C126_brighter_foreground.

(** The camera under twice the zodiacal light: its frame time is no longer, and no shorter than half. *)
Lemma zodi_twice : sky_brighter "zodi" 2 (Many [("zodiacal"%string, by_factor 2)]) (Many [("zodiacal"%string, by_factor (2 * 2))]).
Proof.
  split; [|exists ("zodiacal"%string, by_factor 2); split; [now left|reflexivity]]. constructor; [|constructor]. split; [reflexivity|]. split; [reflexivity|]. right. split; [reflexivity|]. exists 2. split; reflexivity.
Qed.
Example C126_foreground_ex fuel : exists chs y y' T T' m tf tf', build_channels sharp fuel camera = Some (Ok chs) /\
  snd (observe_target run3 chs vega) = Ok y /\ snd (observe_target (with_foregrounds run3 (Many [("zodiacal"%string, by_factor (2 * 2))])) chs vega) = Ok y' /\ x_table y = Some T /\ x_table y' = Some T' /\
  shows (cols T) "phot" "frameTime" (reals (map (fun _ => tf) m)) /\ shows (cols T') "phot" "frameTime" (reals (map (fun _ => tf') (m : list R))) /\ tf / 2 <= tf' <= tf.
Proof.
  destruct (C126_brighter_foreground sharp fuel camera _ run3 vega _ _ _ [] [] "zodi"%string 2 (camera_sees fuel) zodi_twice ltac:(discriminate) ltac:(lra) (Forall_nil _) (Forall_nil _)) as (chs & y & y' & B & O & O' & T & T' & XT & XT' & X).
  destruct (channel_of sharp fuel camera [("phot"%string, auto_phot)] chs "phot" auto_phot eq_refl B (or_introl eq_refl)) as (c & IC).
  destruct (X "phot"%string c IC) as (_ & _ & ((m & m' & tf & tf' & _ & _ & _ & F1 & F2 & P & L & _) & _)). exists chs, y, y', T, T', m, tf, tf'. repeat (split; [assumption|]).
  rewrite Rmax_right, Rmin_left in L by lra. lra.
Qed.
