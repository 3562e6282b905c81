(** Noisier detectors (C120). *)
From Coq Require Import Reals Lra Psatz Lia.
From Verif Require Import Base Dict PyStr XR M_Signal M_Optics M_Light M_Bins M_Psf M_Omega M_Star M_Source M_Foreground S_Signal S_Optics S_Light S_Bins S_Star S_Success S_Foreground L_Signal L_Optics L_Light L_Bins P_Optics P_Bins P_Windows P_Light P_Success P_Omega P_Star P_Source P_Foreground.
From Verif Require M_Noise P_Noise L_Foreground S_Source P_Star.
From Verif Require Import S_Noise L_Noise.
From Verif Require Import M_Table L_Table P_Table M_Observe S_Observe L_Observe L_Stages L_Outcome S_Works S_Complete P_Observe P_Outcome P_Works P_Complete P_Instance M_Build S_Build S_Ready L_Build L_Ready P_Build P_Ready P_Mission P_Telescope S_Full P_Full S_Bright L_Bright P_Bright P_BrightMission L_Compare S_Worse.
Open Scope list_scope.

(** ** Custom noise *)
Lemma louder_valid e e' : louder e e' -> valid_entry e -> valid_entry e'.
Proof. intros (N & V) (A & B). split; [now rewrite N|]. destruct (M_Noise.e_value e) as [[]|], (M_Noise.e_value e') as [[]|]; cbn in *; unfold is_fin in *; eauto; contradiction. Qed.
Lemma more_valid c c' : more_custom c c' -> Forall valid_entry (entries c) -> Forall valid_entry (entries c').
Proof.
  intros (es & extra & E & F & X) V. rewrite E. apply Forall_app. split; auto. clear -F V. induction F as [|a b l l' L F IH]; constructor; inversion V; subst; eauto using louder_valid.
Qed.
Lemma ppm2_nonneg l : 0 <= ppm2 l.
Proof. unfold ppm2. induction l as [|a l IH]; cbn [sum_over]; [lra|]. pose proof (pow2_ge_0 (a / 1000000)). lra. Qed.
Lemma more_ppm2 c c' : more_custom c c' -> ppm2 (in_effect (entries c)) <= ppm2 (in_effect (entries c')).
Proof.
  intros (es & extra & E & F & X). rewrite E. clear -F. induction F as [|a b l l' [N V] F IH]; cbn [in_effect app]; [apply ppm2_nonneg|]. rewrite N. destruct (M_Noise.e_name a) as [n|]; [|apply Rle_refl].
  destruct (M_Noise.e_value a) as [[v| | |]|], (M_Noise.e_value b) as [[v'| | |]|]; try contradiction; try apply Rle_refl. unfold ppm2 in *. cbn [sum_over]. assert ((v / 1000000) ^ 2 <= (v' / 1000000) ^ 2) by (apply pow_incr; unfold Rdiv; lra). lra.
Qed.

(** ** A noisier row *)
Lemma dark_more g w d d' : 0 <= g -> 0 <= w -> d <= d' -> dark2 g w d <= dark2 g w d'.
Proof. intros G W D. unfold dark2, Rdiv. repeat apply Rmult_le_compat_r; try lra. apply Rmult_le_compat_l; auto. now apply Rmult_le_pos. Qed.
Lemma noisier_row det det' sigs v tf i : physical det -> physical det' -> d_freq det' = d_freq det -> d_M det' <= d_M det -> d_dark det <= d_dark det' -> d_read det <= d_read det' -> d_X det <= d_X det' -> 0 < tf ->
  (forall k, In k sigs -> 0 <= v k i) -> 0 <= v "WindowSize"%string i -> 0 < v "star_signal_inAperture"%string i ->
  0 <= row_noise det sigs v tf i <= row_noise det' sigs v tf i.
Proof.
  intros P P' F M D RD X TF S W ST. unfold row_noise. rewrite F. set (n := reads tf (d_freq det)). assert (N2 : 2 <= n) by (unfold n, reads; apply IZR_le; lia).
  assert (G : 0 <= shot_gain n). { unfold shot_gain. apply Rmult_le_pos; [nra|]. left. apply Rinv_0_lt_compat. nra. }
  assert (RG : 0 <= 12 * (n - 1) / (n ^ 2 + n)). { apply Rmult_le_pos; [nra|]. left. apply Rinv_0_lt_compat. nra. }
  destruct P as (P1 & P2 & P3 & P4 & P5 & P6 & P7), P' as (Q1 & Q2 & Q3 & Q4 & Q5 & Q6 & Q7).
  assert (PH : 0 <= sum_over (fun k => photon2 (shot_gain n) (v k i)) sigs). { clear -S G. induction sigs as [|k l IH]; cbn [sum_over]; [lra|]. apply Rplus_le_le_0_compat; [|apply IH; intros; apply S; now right]. unfold photon2. apply Rmult_le_pos; [apply Rmult_le_pos; auto; apply S; now left|lra]. }
  assert (D2 : 0 <= dark2 (shot_gain n) (v "WindowSize"%string i) (d_dark det) <= dark2 (shot_gain n) (v "WindowSize"%string i) (d_dark det')). { split; [unfold dark2; apply Rmult_le_pos; [|lra]; apply Rmult_le_pos; auto; apply Rmult_le_pos; auto|now apply dark_more]. }
  assert (R2 : 0 <= read2 (read_gain n (d_M det)) (d_read det) (v "WindowSize"%string i) tf <= read2 (read_gain n (d_M det')) (d_read det') (v "WindowSize"%string i) tf).
  { assert (I : 0 < / d_M det <= / d_M det') by (split; [now apply Rinv_0_lt_compat|apply Rinv_le_contravar; auto]). unfold read_gain. set (a := 12 * (n - 1) / (n ^ 2 + n)) in *. assert (TI : 0 < / tf) by now apply Rinv_0_lt_compat.
    assert (A : 0 <= a * / d_M det * d_read det ^ 2 <= a * / d_M det' * d_read det' ^ 2). { split; [apply Rmult_le_pos; [apply Rmult_le_pos; lra|apply pow2_ge_0]|]. apply Rmult_le_compat; [apply Rmult_le_pos; lra|apply pow2_ge_0|apply Rmult_le_compat_l; lra|apply pow_incr; lra]. }
    set (u := v "WindowSize"%string i) in *. unfold read2, Rdiv. assert (U : 0 <= u * / tf * / 3600) by (apply Rmult_le_pos; [apply Rmult_le_pos|]; lra). split.
    - replace (a * / d_M det * d_read det ^ 2 * u * / tf * / 3600) with (a * / d_M det * d_read det ^ 2 * (u * / tf * / 3600)) by ring. apply Rmult_le_pos; [apply A|exact U].
    - rewrite !(Rmult_assoc _ u), !(Rmult_assoc _ (u * / tf)). apply Rmult_le_compat_r; [exact U|apply A]. }
  unfold total_noise. assert (SI : 0 < / v "star_signal_inAperture"%string i) by now apply Rinv_0_lt_compat. split; [apply Rmult_le_pos; [apply sqrt_pos|lra]|]. apply Rmult_le_compat_r; [lra|]. apply sqrt_le_1_alt. assert ((1 + d_X det) * sum_over (fun k => photon2 (shot_gain n) (v k i)) sigs <= (1 + d_X det') * sum_over (fun k => photon2 (shot_gain n) (v k i)) sigs) by (apply Rmult_le_compat_r; lra). lra.
Qed.

(** ** Building with other detectors *)
Definition rewired (ch : M_Noise.channel) (cu : option M_Noise.custom) (c : chan) : chan :=
  {| h_star := h_star c; h_kind := h_kind c; h_light := h_light c; h_noise := ch; h_common := cu; h_table := h_table c |}.
Lemma path_worse w p p' d q ch : p_optics p' = p_optics p -> build_optical_path w p' (with_detector d ch) q = match build_optical_path w p d q with Ok c => Ok (rewired ch (p_custom p') c) | Err e => Err e end.
Proof.
  intros PO. unfold build_optical_path. change (optical_grid w (with_detector d ch)) with (optical_grid w d). destruct (optical_grid w d) as [wl|]; cbn [bind]; auto.
  assert (OP : optical_path wl p' (with_detector d ch) = optical_path wl p d) by (unfold optical_path; rewrite PO; reflexivity). rewrite OP, PO. destruct (optical_path wl p d) as [els|]; cbn [bind]; auto. destruct (col _ _) as [total|]; cbn [bind]; auto.
  cbn [with_detector d_min d_max d_fx d_fy M_Build.d_delta d_detector]. destruct (get_transmission_column _ _ _ _ _) as [[tc tr]|]; cbn [bind]; auto. destruct (chain planck wl els) as [[rads slit]|]; cbn [bind]; auto. destruct (lookup (d_fx d)) as [fx|]; cbn [bind]; auto.
  destruct (compute_signal _ _ _ _) as [em|]; cbn [bind]; auto.
Qed.
Lemma one_worse w fuel p p' name d ch : p_optics p' = p_optics p -> build_one w fuel p' name (with_detector d ch) = match build_one w fuel p name d with Some (Ok c) => Some (Ok (rewired ch (p_custom p') c)) | r => r end.
Proof.
  intros PO. unfold build_one, build_instrument. cbn [with_detector d_class]. destruct (d_class d) as [s|]; auto. destruct (class_named (py_lower s)) as [cl|]; auto. unfold build.
  change (photometer_builder w fuel name (with_detector d ch) []) with (photometer_builder w fuel name d []). change (spectrometer_builder w fuel name (with_detector d ch) []) with (spectrometer_builder w fuel name d []).
  set (b := match cl with Photometer => _ | Spectrometer => _ end). destruct b as [[q|e]|]; cbn [andthen]; auto. rewrite (path_worse w p p' d q ch PO). destruct (build_optical_path w p d q); reflexivity.
Qed.
Lemma channels_worse w fuel p p' l l' chs : p_optics p' = p_optics p -> Forall2 (fun nd nd' => fst nd' = fst nd /\ exists ch, snd nd' = with_detector (snd nd) ch /\ worse (d_detector (snd nd)) ch) l l' ->
  build_all w fuel p l = Some (Ok chs) -> exists chs', build_all w fuel p' l' = Some (Ok chs') /\
  Forall2 (fun a a' => fst a' = fst a /\ exists d ch, In (fst a, d) l /\ worse (d_detector d) ch /\ h_noise (snd a) = d_detector d /\ h_common (snd a) = p_custom p /\ snd a' = rewired ch (p_custom p') (snd a)) chs chs'.
Proof.
  intros PO F. revert chs. induction F as [|[n d] [n' d'] l l' (E1 & ch & E2 & W) F IH]; intros chs E; cbn [build_all] in *. { injection E as <-. exists []. split; auto. }
  cbn [fst snd] in *. subst. rewrite (one_worse w fuel p p' n d ch PO). destruct (build_one w fuel p n d) as [[c|]|] eqn:BO; cbn [andthen] in *; try discriminate. destruct (build_all w fuel p l) as [[cs|]|]; cbn [andthen] in *; try discriminate. injection E as <-.
  destruct (IH cs eq_refl) as (cs' & -> & F2). cbn [andthen]. eexists. split; [reflexivity|]. constructor.
  - cbn [fst snd]. split; auto. exists d, ch. split; [now left|]. split; auto. apply built_inv in BO as (kk & q & _ & _ & _ & O). destruct (path_inv _ _ _ _ _ O) as (? & ? & ? & ? & ? & ? & ? & ? & _ & _ & _ & _ & _ & _ & _ & _ & _ & _ & HN & HC & _). split; auto.
  - clear -F2. induction F2 as [|a a' x x' (A & d0 & c0 & B1 & B2) F IH]; constructor; auto. split; auto. exists d0, c0. split; [now right|auto].
Qed.
Lemma common_worse w p p' name d ch : p_optics p' = p_optics p -> worse (d_detector d) ch -> complete_common w p name d -> complete_common w p' name (with_detector d ch).
Proof.
  intros PO (WN & _ & _ & dd & dd' & _ & DE & _ & PH & _) (H1 & H2 & H3 & H4 & H5 & H6 & H7 & H8 & H9 & H10 & _). unfold complete_common. rewrite PO. cbn [with_detector d_from d_to M_Build.d_delta d_min d_max d_optics d_fx d_fy d_detector].
  do 8 (split; [assumption|]). split; [exact H9|]. split; [congruence|]. exists dd'. auto.
Qed.
Lemma F2_in {A B} (P : A -> B -> Prop) l l' b : Forall2 P l l' -> In b l' -> exists a, In a l /\ P a b.
Proof. induction 1 as [|x y l l' H F IH]; [intros []|]. intros [<-|I]; [exists x; split; [now left|auto]|]. destruct (IH I) as (a & J & Q). exists a. split; [now right|auto]. Qed.
Lemma F2_in_l {A B} (P : A -> B -> Prop) l l' a : Forall2 P l l' -> In a l -> exists b, In b l' /\ P a b.
Proof. induction 1 as [|x y l l' H F IH]; [intros []|]. intros [<-|I]; [exists y; split; [now left|auto]|]. destruct (IH I) as (b & J & Q). exists b. split; [now right|auto]. Qed.
Lemma mission_worse w fuel p p' l l' s x f src : p_optics p' = p_optics p -> more_custom (p_custom p) (p_custom p') -> p_channel p' = Some (Ordered l') ->
  Forall2 (fun nd nd' => fst nd' = fst nd /\ exists ch, snd nd' = with_detector (snd nd) ch /\ worse (d_detector (snd nd)) ch) l l' -> mission w fuel p l s x f src -> mission w fuel p' l' s x f src.
Proof.
  intros PO PC CH F (H1 & H2 & (H3 & H3') & H4 & H5 & H6 & H7 & H8 & H9 & H10). assert (FN : map fst l' = map fst l) by (clear -F; induction F as [|a b l l' (E & _) F IH]; cbn; congruence).
  assert (BACK : forall name d', In (name, d') l' -> exists d ch, In (name, d) l /\ d' = with_detector d ch /\ worse (d_detector d) ch). { intros name d' I. destruct (F2_in _ _ _ _ F I) as ([n d] & J & E & ch & W1 & W2). cbn [fst snd] in *. subst. exists d, ch. auto. }
  split; [exact CH|]. split; [intros ->; inversion F; subst; congruence|]. split; [split; [now rewrite FN|]|]. { intros name d' I. destruct (BACK _ _ I) as (d & ch & J & -> & (WN & _)). cbn [with_detector d_detector]. rewrite WN. exact (H3' name d J). }
  split. { intros name d' r I. destruct (BACK _ _ I) as (d & ch & J & -> & _). exact (H4 name d r J). }
  split. { intros name d' I. destruct (BACK _ _ I) as (d & ch & J & -> & W). assert (SL : forall v, has_slit p' (with_detector d ch) v <-> has_slit p d v) by (intros v; unfold has_slit; rewrite PO; reflexivity).
    destruct (H5 name d J) as [C|C]; [left|right].
    - destruct C as (C1 & C2 & C3 & C4). split; [eapply common_worse; eauto|]. split; [exact C2|]. split; [intros v X; exact (C3 v (proj1 (SL v) X))|exact C4].
    - destruct C as (C1 & C2 & C3 & C4 & ss & e & bins & wls & gg & D1 & D2 & D). split; [eapply common_worse; eauto|]. split; [exact C2|]. split; [exact C3|]. split; [exact C4|]. exists ss, e, bins, wls, gg. split; [exact D1|]. split; [exact D2|].
      cbv zeta in *. destruct D as (E1 & E2 & E3 & E4 & E5 & E6 & E7 & E8 & E9). do 8 (split; [assumption|]). intros v V. exact (E9 v (proj1 (SL v) V)). }
  split. { intros name d' I. destruct (BACK _ _ I) as (d & ch & J & -> & (_ & W & _)). cbn [with_detector d_detector]. rewrite W. exact (H6 name d J). }
  split. { intros name d' wl I. destruct (BACK _ _ I) as (d & ch & J & -> & _). exact (H7 name d wl J). }
  split; [eapply more_valid; eauto|]. split; [|exact H10]. intros name d' I. destruct (BACK _ _ I) as (d & ch & J & -> & (_ & _ & W & _)). exact (more_valid _ _ W (H9 name d J)).
Qed.

(** ** C120: noisier detectors *)
(** The estimate [y'] with noisier detectors than for [y] *)
Definition as_noisy (chs : channels) (y y' : target) : Prop :=
  exists T T', x_table y = Some T /\ x_table y' = Some T' /\
  forall ch c, In (ch, c) chs ->
    (forall m v, ordinary m \/ m = "frameTime"%string -> fresh_column y m -> shows (cols T') ch m v <-> shows (cols T) ch m v) /\
    exists z z', shows (cols T) ch "total_noise" (map Num z) /\ shows (cols T') ch "total_noise" (map Num z') /\ Forall2 no_better z z'.
Theorem C120_noisier_detectors : forall w fuel p p' l s x f src h h', mission w fuel p l s x f src -> payload_worse p p' ->
  Forall (fun sx => no_instrument_in_the_sky (fst sx) (snd sx)) h -> Forall (fun sx => no_instrument_in_the_sky (fst sx) (snd sx)) h' ->
  exists chs chs' y y', build_channels w fuel p = Some (Ok chs) /\ build_channels w fuel p' = Some (Ok chs') /\ map fst chs' = map fst chs /\
    snd (observe_target s (after chs h) x) = Ok y /\ snd (observe_target s (after chs' h') x) = Ok y' /\ as_noisy chs y y'.
Proof.
  intros w fuel p p' l s x f src h h' M (PO & PC & l0 & l' & CH & CH' & FL) AH AH'. assert (l0 = l) as -> by (destruct M as (C & _); congruence). pose proof (mission_worse w fuel p p' l l' s x f src PO PC CH' FL M) as M'.
  destruct (mission_ready _ _ _ _ _ _ _ _ M) as (chs & st & g & fs & B & I & HN & LD & FG & GF & US). destruct (mission_ready _ _ _ _ _ _ _ _ M') as (chs' & st' & g' & fs' & B' & I' & _ & LD' & FG' & GF' & US').
  assert (BA := B). unfold build_channels in BA. rewrite CH in BA. destruct (channels_worse w fuel p p' l l' chs PO FL BA) as (chs2 & B2 & F2). assert (chs2 = chs') as -> by (unfold build_channels in B'; rewrite CH' in B'; congruence).
  rewrite LD in LD'. injection LD' as <-. rewrite FG in FG'. injection FG' as <-. rewrite GF in GF'. injection GF' as <-.
  assert (N1 : ~ In "MaxSignal_inPixel"%string channel_columns) by (cbn; intuition discriminate). assert (N2 : In "Wavelength"%string channel_columns) by (cbn; auto). assert (N3 : In "WindowSize"%string channel_columns) by (cbn; auto 10).
  destruct (observed_rows channel_columns chs h s x g fs st I channel_columns_quiet N1 N2 N3 (skies_apart chs h AH) (mission_apart _ _ _ _ _ _ _ _ chs M) FG GF LD US) as (y & T & O & XT & XS & V).
  destruct (observed_rows channel_columns chs' h' s x g fs st I' channel_columns_quiet N1 N2 N3 (skies_apart _ h' AH') (mission_apart _ _ _ _ _ _ _ _ _ M') FG GF LD US') as (y' & T' & O' & XT' & XS' & V').
  exists chs, chs', y, y'. split; [auto|]. split; [auto|]. split. { clear -F2. induction F2 as [|a a' q q' (E & _) F IH]; cbn; auto. now rewrite E, IH. }
  split; [auto|]. split; [auto|]. exists T, T'. split; [auto|]. split; [auto|]. intros name c IC.
  assert (AB : as_built channel_columns (name, c)) by (destruct I as (_ & _ & _ & _ & _ & AB); rewrite Forall_forall in AB; auto).
  destruct (F2_in_l _ _ _ _ F2 IC) as ([n c'] & IC' & EN & d & ch & ID & W & HNo & HCo & EC). cbn [fst snd] in *. subst n c'.
  pose proof W as (_ & WF & WC & det & det' & DE & DE' & PH & PH' & Q1 & Q2 & Q3 & Q4 & Q5). rewrite <- HNo in DE.
  destruct (V name c det IC DE PH) as (o & tf & total & SR). destruct (V' name _ det' IC' DE' PH') as (o' & tf' & total' & SR').
  assert (o' = o) as -> by (pose proof (sr_own _ _ _ _ _ _ _ _ _ _ _ _ SR'); pose proof (sr_own _ _ _ _ _ _ _ _ _ _ _ _ SR) as X; change (own (Some fs) (st_sed st) (g_sky g) (name, rewired ch (p_custom p') c)) with (own (Some fs) (st_sed st) (g_sky g) (name, c)) in *; congruence).
  change (bins_of (name, rewired ch (p_custom p') c)) with (bins_of (name, c)) in *.
  assert (TF : tf' = tf). { destruct M as (_ & _ & _ & _ & _ & FF & _). destruct (FF name d ID) as (r & FR & _). pose proof (sr_frame _ _ _ _ _ _ _ _ _ _ _ _ SR) as A1. pose proof (sr_frame _ _ _ _ _ _ _ _ _ _ _ _ SR') as A2. cbn [rewired h_noise] in A2. rewrite HNo, FR in A1. rewrite WF, FR in A2. congruence. } subst tf'.
  change (bins_of (name, rewired ch (p_custom p') c)) with (bins_of (name, c)) in *.
  split.
  - intros m v OM FR. apply fresh_loud in FR. rewrite XS in FR. destruct (string_dec m "MaxSignal_inPixel") as [->|NM].
    + pose proof (sr_max _ _ _ _ _ _ _ _ _ _ _ _ SR) as A1. pose proof (sr_max _ _ _ _ _ _ _ _ _ _ _ _ SR') as A2. split; intros X; [rewrite (shows_fun _ _ _ _ _ X A2); exact A1|rewrite (shows_fun _ _ _ _ _ X A1); exact A2].
    + destruct OM as [OM| ->]; [rewrite (sr_shows _ _ _ _ _ _ _ _ _ _ _ _ SR), (sr_shows _ _ _ _ _ _ _ _ _ _ _ _ SR') by auto; tauto|].
      pose proof (sr_frame_shown _ _ _ _ _ _ _ _ _ _ _ _ SR) as A1. pose proof (sr_frame_shown _ _ _ _ _ _ _ _ _ _ _ _ SR') as A2. split; intros X; [rewrite (shows_fun _ _ _ _ _ X A2); exact A1|rewrite (shows_fun _ _ _ _ _ X A1); exact A2].
  - exists (map total (List.seq 0 (bins_of (name, c)))), (map total' (List.seq 0 (bins_of (name, c)))). rewrite !map_map. split; [exact (sr_total_shown _ _ _ _ _ _ _ _ _ _ _ _ SR)|]. split; [exact (sr_total_shown _ _ _ _ _ _ _ _ _ _ _ _ SR')|]. apply seq_F2. intros i L.
    destruct (sr_total _ _ _ _ _ _ _ _ _ _ _ _ SR i L) as [A1 A2]. destruct (sr_total _ _ _ _ _ _ _ _ _ _ _ _ SR' i L) as [B1 B2'].
    destruct (Req_EM_T (value_at o "star_signal_inAperture" i) 0) as [Z|Z]; [rewrite A1, B1 by auto; exact Coq.Init.Logic.I|]. rewrite A2, B2' by auto. cbn [no_better rewired h_common h_noise].
    assert (P : forall k, In k (names o) -> contains "signal" k = true \/ contains "Max" k = true \/ k = "Wavelength"%string \/ k = "WindowSize"%string -> 0 <= value_at o k i) by (intros k J W0; apply (sr_pos _ _ _ _ _ _ _ _ _ _ _ _ SR); auto).
    assert (SI : In "star_signal_inAperture"%string (names o)). { destruct (own_get _ _ _ _ _ _ AB (sr_own _ _ _ _ _ _ _ _ _ _ _ _ SR)) as (d1 & s1 & t1 & _ & _ & G). apply sget_names. rewrite G. unfold star_columns. destruct (g_sky g), (o_sky s1); cbn; eauto. }
    assert (S0 : 0 <= value_at o "star_signal_inAperture" i) by (apply P; auto).
    assert (WI : In "WindowSize"%string (names o)) by now apply (sr_base _ _ _ _ _ _ _ _ _ _ _ _ SR).
    destruct (noisier_row det det' (filter (contains "signal") (names o)) (value_at o) tf i) as [L0 L1]; auto.
    + apply (sr_tf _ _ _ _ _ _ _ _ _ _ _ _ SR).
    + intros k J. apply filter_In in J as [J1 J2]. auto.
    + lra.
    + apply sqrt_le_1_alt. pose proof (more_ppm2 _ _ PC) as M1. rewrite HCo. pose proof (more_ppm2 _ _ WC) as M2. rewrite HNo. apply Rplus_le_compat; [apply pow_incr; lra|lra].
Qed.
Print Assumptions C120_noisier_detectors.
(** The detectors of the telescope, with fifty times the dark current and jitter besides *)
Definition aged (ch : M_Noise.channel) : M_Noise.channel :=
  {| M_Noise.ch_name := M_Noise.ch_name ch; M_Noise.well_depth := M_Noise.well_depth ch; M_Noise.f_well_depth := M_Noise.f_well_depth ch; M_Noise.fixed_frame_time := M_Noise.fixed_frame_time ch;
     M_Noise.freqNDR := M_Noise.freqNDR ch; M_Noise.multiaccumM := M_Noise.multiaccumM ch; M_Noise.dark_current := Fin 50; M_Noise.read_noise := M_Noise.read_noise ch; M_Noise.noiseX := M_Noise.noiseX ch;
     M_Noise.ch_custom := Some (M_Noise.Many (entries (M_Noise.ch_custom ch) ++ [{| M_Noise.e_name := Some "jitter"%string; M_Noise.e_value := Some (Fin 20) |}])) |}.
Definition old_telescope : payload := {| p_optics := p_optics telescope; p_custom := p_custom telescope; p_channel := Some (Ordered [("phot"%string, with_detector phot (aged (d_detector phot))); ("spec"%string, with_detector spec (aged (d_detector spec)))]) |}.
Lemma aging name : worse (detector_of name) (aged (detector_of name)).
Proof.
  split; [reflexivity|]. split; [reflexivity|]. split.
  - exists [], [{| M_Noise.e_name := Some "jitter"%string; M_Noise.e_value := Some (Fin 20) |}]. split; [reflexivity|]. split; [constructor|]. constructor; [|constructor]. split; [discriminate|]. now exists 20.
  - exists the_numbers, {| d_well := 100; d_f := 1 / 2; d_freq := 1; d_M := 1; d_dark := 50; d_read := 1; d_X := 0 |}. split; [repeat split; auto|]. split; [repeat split; auto|]. unfold S_Noise.physical, the_numbers. cbn. repeat split; lra.
Qed.
Lemma telescope_aged : payload_worse telescope old_telescope.
Proof.
  split; [reflexivity|]. split; [exists [], []; repeat split; constructor|]. do 2 eexists. split; [reflexivity|]. split; [reflexivity|].
  constructor; [|constructor; [|constructor]]; (split; [reflexivity|]); eexists; (split; [reflexivity|]); apply aging.
Qed.
Example C120_ex fuel h : Forall (fun sx => sx = (run, vega)) h ->
  exists chs chs' y y' T T' z z', build_channels sharp fuel telescope = Some (Ok chs) /\ build_channels sharp fuel old_telescope = Some (Ok chs') /\ snd (observe_target run (after chs h) vega) = Ok y /\ snd (observe_target run (after chs' []) vega) = Ok y' /\ x_table y = Some T /\ x_table y' = Some T' /\
  shows (cols T) "spec" "total_noise" (map Num z) /\ shows (cols T') "spec" "total_noise" (map Num z') /\ Forall2 no_better z z'.
Proof.
  intros H. destruct (C120_noisier_detectors sharp fuel telescope old_telescope _ run vega _ _ h [] (vega_mission fuel) telescope_aged (sky_known _ H) (Forall_nil _)) as (chs & chs' & y & y' & B & B1 & _ & O & O' & T & T' & XT & XT' & X).
  destruct (a_telescope fuel) as (a & b & B' & _). assert (chs = [("phot"%string, a); ("spec"%string, b)]) as -> by congruence.
  destruct (X "spec"%string b) as (_ & z & z' & Z); [right; now left|]. eexists _, chs', y, y', T, T', z, z'. split; [exact B|]. repeat (split; [assumption|]). exact Z.
Qed.
