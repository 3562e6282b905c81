(** Automatic frame times behind a filter and with worse detectors (C126). *)
From Coq Require Import Reals Lra Psatz Lia.
From Verif Require Import Base Dict PyStr XR M_Signal M_Optics M_Light M_Bins M_Psf M_Omega M_Star M_Source M_Foreground S_Signal S_Optics S_Light S_Bins S_Star S_Success S_Foreground L_Signal L_Optics L_Light L_Bins P_Optics P_Bins P_Windows P_Light P_Success P_Omega P_Star P_Source P_Foreground.
From Verif Require M_Noise P_Noise L_Foreground S_Source P_Star.
From Verif Require Import S_Noise L_Noise.
From Verif Require Import M_Table L_Table P_Table M_Observe S_Observe L_Observe L_Stages L_Outcome S_Works S_Complete P_Observe P_Outcome P_Works P_Complete P_Instance M_Build S_Build S_Ready L_Build L_Ready P_Build P_Ready P_Mission P_Telescope S_Full P_Full S_Bright L_Bright P_Bright P_BrightMission L_Compare S_Area P_Area S_Glow L_Glow P_Glow S_Worse P_Worse S_Filter L_Filter P_Filter S_Faded L_Faded P_Faded S_Seen L_Seen P_Seen P_Auto.
Open Scope list_scope.
Open Scope R_scope.

(** ** The missions *)
Lemma clear_grey lo hi d k : grey d k -> 0 < k -> clear_element lo hi d.
Proof.
  intros (_ & TR & RF & DA & W1 & W2 & _) K. unfold says, silent, clear_element in *. rewrite DA, W1, W2. split; [|split; discriminate].
  intros q v [->| ->]; rewrite ?TR, ?RF; [intros [= <-]; exact K|discriminate].
Qed.
Lemma seeing_behind key f k w fuel p p' l s x sky src : seeing_mission w fuel p l s x sky src -> payload_behind key f p p' -> grey f k -> 0 < k <= 1 -> seeing_mission w fuel p' l s x sky src.
Proof.
  intros (H1 & H2 & H3 & H4 & H5 & H6 & H7) PB G K. pose proof PB as (PC & PH & (o0 & o1 & PO & PO' & _ & OA & _ & BH) & _). unfold seeing_mission. rewrite PC, PH. do 4 (split; [assumption|]). split; [|split; [|exact H7]].
  - intros name d I. destruct (H5 name d I) as [C|C]; [left|right].
    + destruct C as (C1 & C2 & C3 & C4). split; [eapply common_behind; eauto|]. split; [auto|]. split; [intros v X; exact (C3 v (proj1 (slit_behind key f k p p' d v PB G K) X))|exact C4].
    + destruct C as (C1 & C2 & C3 & C4 & ss & e & bins & wls & gg & D1 & D2 & D). split; [eapply common_behind; eauto|]. split; [exact C2|]. split; [exact C3|]. split; [exact C4|]. exists ss, e, bins, wls, gg. split; [exact D1|]. split; [exact D2|].
      cbv zeta in *. destruct D as (E1 & E2 & E3 & E4 & E5 & E6 & E7 & E8 & E9). do 8 (split; [assumption|]). intros v V. exact (E9 v (proj1 (slit_behind key f k p p' d v PB G K) V)).
  - intros name d wl I GG. destruct (H6 name d wl I GG) as [X|(F & (CA & CE) & X)]; [now left|right]. split; [exact F|]. split; [|exact X]. split.
    + intros o E. rewrite PO' in E. injection E as <-. rewrite OA. now apply CA.
    + intros o e [E|E] EL; [|now apply (CE o e); [right|]]. rewrite PO' in E. cbn in E. injection E as ->. destruct (proj1 (element_behind _ _ _ _ _ BH) EL) as [->|EL']; [apply (clear_grey _ _ f k G); lra|]. apply (CE (o_elements o0) e); [left; now rewrite PO|exact EL'].
Qed.

Lemma seeing_apart w fuel p l s x f src chs : seeing_mission w fuel p l s x f src -> columns_apart channel_columns chs s x.
Proof. intros M _ g G. apply foreign_columns. intros fs' E. eapply M; eauto. Qed.
(** The fullest pixels get at least the fraction [k] of the light and no more than before: frame times
    are no shorter and at most [1/k] times as long; fixed ones do not change, and with them nothing has
    less noise. *)
Definition longer_frames (k : R) (c : chan) (T T' : table) (name : string) : Prop :=
  (exists m m' tf tf', shows T name "MaxSignal_inPixel" (reals m) /\ shows T' name "MaxSignal_inPixel" (reals m') /\ Forall2 (fun a b => k * a <= b <= a) m m' /\
     shows T name "frameTime" (reals (map (fun _ => tf) m)) /\ shows T' name "frameTime" (reals (map (fun _ => tf') m)) /\ 0 < tf /\ tf <= tf' <= tf / k /\
     (M_Noise.fixed_frame_time (h_noise c) <> None -> tf' = tf)) /\
  (M_Noise.fixed_frame_time (h_noise c) <> None -> exists z z', shows T name "total_noise" (map Num z) /\ shows T' name "total_noise" (map Num z') /\ Forall2 no_better z z').
Lemma dimmer_frames k s s' g g' fs fs' st st' T T' name c c' o o' det tf tf' total total' : seen_rows channel_columns s g fs st T name c o det tf total -> seen_rows channel_columns s' g' fs' st' T' name c' o' det tf' total' ->
  h_noise c' = h_noise c -> bins_of (name, c') = bins_of (name, c) -> 0 < k <= 1 ->
  (forall i, (i < bins_of (name, c))%nat -> k * maxima o i <= maxima o' i <= maxima o i) ->
  (M_Noise.fixed_frame_time (h_noise c) <> None -> exists z z', shows T name "total_noise" (map Num z) /\ shows T' name "total_noise" (map Num z') /\ Forall2 no_better z z') ->
  longer_frames k c T T' name.
Proof.
  intros SR SR' SN SB K ML NZ. split; [|exact NZ].
  exists (map (maxima o) (List.seq 0 (bins_of (name, c)))), (map (maxima o') (List.seq 0 (bins_of (name, c)))), tf, tf'. rewrite !map_map, <- !numbers_reals.
  split; [exact (sr_max _ _ _ _ _ _ _ _ _ _ _ _ SR)|]. split; [rewrite <- SB; exact (sr_max _ _ _ _ _ _ _ _ _ _ _ _ SR')|]. split; [apply seq_F2; exact ML|].
  split; [exact (sr_frame_shown _ _ _ _ _ _ _ _ _ _ _ _ SR)|]. split; [rewrite <- SB; exact (sr_frame_shown _ _ _ _ _ _ _ _ _ _ _ _ SR')|]. pose proof (sr_tf _ _ _ _ _ _ _ _ _ _ _ _ SR) as TP. split; [exact TP|].
  pose proof (sr_frame _ _ _ _ _ _ _ _ _ _ _ _ SR) as FA. pose proof (sr_frame _ _ _ _ _ _ _ _ _ _ _ _ SR') as FB. rewrite SN, SB in FB. destruct (M_Noise.fixed_frame_time (h_noise c)) as [ft|].
  + rewrite FA in FB. injection FB as <-. split; [|auto]. split; [lra|]. apply (Rmult_le_reg_r k); [lra|]. replace (tf / k * k) with tf by (field; lra). nra.
  + split; [|congruence]. pose proof (sr_detector _ _ _ _ _ _ _ _ _ _ _ _ SR) as (_ & PWw & PFf & _).
    assert (X : tf / 1 <= tf' <= tf / k). { eapply (frames_between (d_well det) (d_f det) (bins_of (name, c)) (maxima o) (maxima o')); try eassumption; try lra; [apply Rmult_lt_0_compat; lra|]. intros i L. specialize (ML i L). lra. }
    lra.
Qed.

(** ** C126 behind a grey filter *)
(** The estimate [y'] behind a filter that passes the fraction [k], whatever the frame times *)
Definition as_filtered_framed (sky : foregrounds_descr) (k : R) (chs : channels) (y y' : target) : Prop :=
  exists T T', x_table y = Some T /\ x_table y' = Some T' /\
  let dimmed m := photon_column m \/ exists n, in_the_sky sky n /\ glow_column n m in
  forall ch c, In (ch, c) chs ->
    (forall m, dimmed m -> exists v, shows (cols T) ch m (reals v) /\ shows (cols T') ch m (reals (map (fun a => a * k) v))) /\
    (exists t, shows (cols T) ch "TR" (fractions_shown t) /\ shows (cols T') ch "TR" (fractions_shown (map (option_map (fun a => a * k)) t))) /\
    (forall m v, ordinary m -> fresh_column y m -> m <> "MaxSignal_inPixel"%string -> m <> "TR"%string -> ~ dimmed m -> shows (cols T') ch m v <-> shows (cols T) ch m v) /\
    longer_frames k c (cols T) (cols T') ch.
Theorem C126_grey_filter : forall w fuel p p' l s x sky src h h' key f k, seeing_mission w fuel p l s x sky src -> payload_behind key f p p' -> grey f k -> 0 < k <= 1 ->
  Forall (fun sx => no_instrument_in_the_sky (fst sx) (snd sx)) h -> Forall (fun sx => no_instrument_in_the_sky (fst sx) (snd sx)) h' ->
  exists chs chs' y y', build_channels w fuel p = Some (Ok chs) /\ build_channels w fuel p' = Some (Ok chs') /\ map fst chs' = map fst chs /\
    snd (observe_target s (after chs h) x) = Ok y /\ snd (observe_target s (after chs' h') x) = Ok y' /\ as_filtered_framed sky k chs y y'.
Proof.
  intros w fuel p p' l s x sky src h h' key f k M PB G K AH AH'. pose proof (seeing_behind _ _ _ _ _ _ _ _ _ _ _ _ M PB G K) as M'.
  destruct (seeing_ready _ _ _ _ _ _ _ _ M) as (chs & st & g & fs & B & I & LD & FG & GF & _ & _ & _ & _ & _ & _ & _ & _ & US). destruct (seeing_ready _ _ _ _ _ _ _ _ M') as (chs' & st' & g' & fs' & B' & I' & LD' & FG' & GF' & _ & _ & _ & _ & _ & _ & _ & _ & US').
  pose proof M as (CH & _ & _ & _ & _ & _ & _ & _ & _ & _ & _ & _ & _ & YF & SF & GS & GX & _ & _ & _ & _ & _ & NX & _).
  destruct (channels_behind key f k w fuel p p' l chs PB G CH B) as (chs2 & B2 & F2). assert (chs2 = chs') as -> by congruence.
  rewrite LD in LD'. injection LD' as <-. rewrite FG in FG'. injection FG' as <-. rewrite GF in GF'. injection GF' as <-.
  assert (EF := FG). unfold foregrounds_of in EF. rewrite YF in EF. pose proof (stored_are _ _ _ _ _ _ _ _ GX EF GF) as SA.
  assert (N1 : ~ In "MaxSignal_inPixel"%string channel_columns) by (cbn; intuition discriminate). assert (N2 : In "Wavelength"%string channel_columns) by (cbn; auto). assert (N3 : In "WindowSize"%string channel_columns) by (cbn; auto 10).
  destruct (observed_rows channel_columns chs h s x g fs st I channel_columns_quiet N1 N2 N3 (skies_apart chs h AH) (seeing_apart _ _ _ _ _ _ _ _ chs M) FG GF LD US) as (y & T & O & XT & XS & V).
  destruct (observed_rows channel_columns chs' h' s x g fs st I' channel_columns_quiet N1 N2 N3 (skies_apart _ h' AH') (seeing_apart _ _ _ _ _ _ _ _ _ M') FG GF LD US') as (y' & T' & O' & XT' & XS' & V').
  exists chs, chs', y, y'. split; [auto|]. split; [auto|]. split. { clear -F2. induction F2 as [|a a' l l' [E _] F IH]; cbn; auto. now rewrite E, IH. }
  split; [auto|]. split; [auto|]. exists T, T'. split; [auto|]. split; [auto|]. cbv zeta. intros name c IC.
  assert (DM : forall m, (photon_column m \/ exists n, in_the_sky sky n /\ glow_column n m) <-> dimmed fs m). { intros m. unfold dimmed. split; (intros [X|(n & A1 & A2)]; [now left|right; exists n; split; [now apply SA|auto]]). }
  assert (AB : as_built channel_columns (name, c)) by (destruct I as (_ & _ & _ & _ & _ & AB); rewrite Forall_forall in AB; auto).
  assert (X : exists c', In (name, c') chs' /\ behind_it k c c'). { clear -F2 IC. induction F2 as [|[n a] [n' a'] l l' [E BI] F IH]; [destruct IC|]. cbn in E, BI. destruct IC as [[= <- <-]|IC]; [subst; exists a'; split; [now left|auto]|]. destruct (IH IC) as (c' & J & BI'). exists c'. split; [now right|auto]. }
  destruct X as (c' & IC' & BI). pose proof BI as (B1 & B2' & B3 & B4 & B5 & B6 & B7 & B8).
  destruct (US name c IC) as (_ & _ & dd & so & t0 & _ & _ & UO). pose proof UO as ((det & DE & PH) & _).
  destruct (V name c det IC DE PH) as (o & tf & total & SR). assert (DE' : describes (h_noise c') det) by (rewrite B4; exact DE). destruct (V' name c' det IC' DE' PH) as (o' & tf' & total' & SR').
  destruct (own_filter channel_columns fs (st_sed st) (g_sky g) k name c c' o ltac:(lra) BI AB (sr_own _ _ _ _ _ _ _ _ _ _ _ _ SR)) as (o2 & OW & NS & PC & TC & OT). assert (o2 = o') as -> by (pose proof (sr_own _ _ _ _ _ _ _ _ _ _ _ _ SR'); congruence).
  assert (SC : forall m, dimmed fs m -> ordinary m /\ m <> "MaxSignal_inPixel"%string /\ loud (g_sky g) m = true).
  { intros m [J|(n & _ & J)].
    - unfold photon_column in J. cbn in J. repeat (destruct J as [<-|J]; [split; [apply ordinary_end; try reflexivity; discriminate|split; [discriminate|destruct (g_sky g); reflexivity]]|]). destruct J.
    - assert (X : forall u, ends_with "_signal" u = false -> ends_with "_MaxSignal_inPixel" u = false -> m <> u) by (intros u W1 W2; destruct J as [->| ->]; now apply suffix_not).
      split; [destruct J as [->| ->]; apply ordinary_suffix; auto|split; [apply X; reflexivity|]].
      unfold loud. assert (Y1 := X "sky TR"%string eq_refl eq_refl). assert (Y2 := X "foreground_transmission"%string eq_refl eq_refl). apply String.eqb_neq in Y1. apply String.eqb_neq in Y2. rewrite Y1, Y2. now destruct (g_sky g). }
  split; [|split; [|split]].
  - intros m J. apply DM in J. destruct (SC m J) as (Q1 & Q2 & Q3). destruct (PC m J) as (v & G1 & G2). exists v. split; [now apply (sr_shows _ _ _ _ _ _ _ _ _ _ _ _ SR)|now apply (sr_shows _ _ _ _ _ _ _ _ _ _ _ _ SR')].
  - destruct TC as (t & T1 & T2). exists t. assert (OR : ordinary "TR") by (apply ordinary_end; try reflexivity; discriminate). assert (LR : loud (g_sky g) "TR" = true) by (destruct (g_sky g); reflexivity). split; [apply (sr_shows _ _ _ _ _ _ _ _ _ _ _ _ SR)|apply (sr_shows _ _ _ _ _ _ _ _ _ _ _ _ SR')]; auto; discriminate.
  - intros m v OM FR NT NR NP. rewrite DM in NP. apply fresh_loud in FR. rewrite XS in FR. rewrite (sr_shows _ _ _ _ _ _ _ _ _ _ _ _ SR), (sr_shows _ _ _ _ _ _ _ _ _ _ _ _ SR'), OT by auto. tauto.
  - assert (VAL : forall m, m <> "TR"%string -> (dimmed fs m /\ forall i, value_at o' m i = k * value_at o m i) \/ (~ dimmed fs m /\ forall i, value_at o' m i = value_at o m i)).
    { intros m NT. destruct (dimmed_dec fs m) as [J|J]; [left|right]; (split; [exact J|]).
      - destruct (PC m J) as (v & G1 & G2). eapply value_star; eauto.
      - intros i. unfold value_at, col_of. now rewrite OT. }
    assert (WI : In "WindowSize"%string (names o)) by now apply (sr_base _ _ _ _ _ _ _ _ _ _ _ _ SR).
    assert (DS : dimmed fs "star_signal_inAperture") by (left; cbn; auto).
    assert (SI : In "star_signal_inAperture"%string (names o)). { destruct (PC _ DS) as (v & G1 & _). apply sget_names. eauto. }
    assert (EW : forall i, value_at o' "WindowSize" i = value_at o "WindowSize" i). { destruct (VAL "WindowSize"%string) as [[N _]|[_ E]]; [discriminate| |exact E]. exfalso. destruct N as [N|(n & _ & [N|N])]; [cbn in N; intuition discriminate|symmetry in N; revert N; now apply suffix_not|symmetry in N; revert N; now apply suffix_not]. }
    assert (ES : forall i, value_at o' "star_signal_inAperture" i = k * value_at o "star_signal_inAperture" i) by (destruct (VAL "star_signal_inAperture"%string) as [[_ E]|[N _]]; [discriminate|exact E|contradiction]).
    assert (SB : bins_of (name, c') = bins_of (name, c)) by (unfold bins_of; cbn [snd]; now rewrite B1).
    apply (dimmer_frames k _ _ _ _ _ _ _ _ _ _ _ _ _ _ _ _ _ _ _ _ SR SR' B4 SB K).
    + intros i L. unfold maxima. rewrite NS, <- (sum_over_times k). split; apply sum_over_le; intros m J; apply filter_In in J as [J1 J2]; pose proof (sr_pos _ _ _ _ _ _ _ _ _ _ _ _ SR m i J1 (or_intror (or_introl J2)) L); (destruct (VAL m) as [[_ E]|[_ E]]; [intros ->; discriminate J2| |]; rewrite E; nra).
    + intros FX. apply (noisier_rows _ _ _ _ _ _ _ _ _ _ _ _ _ _ _ _ _ _ _ _ _ _ SR SR' B4 B5 SB NS WI SI k K FX (fun i _ => EW i)).
      * intros m i J S L'. pose proof (sr_pos _ _ _ _ _ _ _ _ _ _ _ _ SR m i J (or_introl S) L'). destruct (VAL m) as [[_ E]|[_ E]]; [intros ->; discriminate S| |]; rewrite E; nra.
      * intros i _. apply ES.
Qed.
Print Assumptions C126_grey_filter.
(** ** C126 with detectors of lower quantum efficiency *)
Lemma seeing_faded k w fuel p p' l l' s x f src : (forall n, 0 < k n <= 1) -> p_optics p' = p_optics p -> p_custom p' = p_custom p -> p_channel p' = Some (Ordered l') ->
  Forall2 (fun nd nd' => fst nd' = fst nd /\ exists q, snd nd' = with_qe (snd nd) q /\ less_efficient (k (fst nd)) (fst nd) (d_qe (snd nd)) q) l l' -> seeing_mission w fuel p l s x f src -> seeing_mission w fuel p' l' s x f src.
Proof.
  intros K PO PC CH F (H1 & H2 & (H3 & H3') & H4 & H5 & H6 & H7 & H8 & H9 & H10). assert (FN : map fst l' = map fst l) by (clear -F; induction F as [|a b l l' (E & _) F IH]; cbn; congruence).
  assert (BACK : forall name d', In (name, d') l' -> exists d q, In (name, d) l /\ d' = with_qe d q /\ less_efficient (k name) name (d_qe d) q). { intros name d' I. destruct (F2_in _ _ _ _ F I) as ([n d] & J & E & q & W1 & W2). cbn [fst snd] in *. subst. exists d, q. auto. }
  assert (KK : forall n, 0 <= k n <= 1) by (intros n; specialize (K n); lra).
  split; [exact CH|]. split; [intros ->; inversion F; subst; congruence|]. split; [split; [now rewrite FN|]|]. { intros name d' I. destruct (BACK _ _ I) as (d & q & J & -> & _). exact (H3' name d J). }
  split. { intros name d' r I. destruct (BACK _ _ I) as (d & q & J & -> & _). exact (H4 name d r J). }
  split. { intros name d' I. destruct (BACK _ _ I) as (d & q & J & -> & W). assert (SL : forall v, has_slit p' (with_qe d q) v <-> has_slit p d v) by (intros v; unfold has_slit; rewrite PO; reflexivity).
    destruct (H5 name d J) as [C|C]; [left|right].
    - destruct C as (C1 & C2 & C3 & C4). split; [eapply common_faded; eauto|]. split; [exact C2|]. split; [intros v X; exact (C3 v (proj1 (SL v) X))|exact C4].
    - destruct C as (C1 & C2 & C3 & C4 & ss & e & bins & wls & gg & D1 & D2 & D). split; [eapply common_faded; eauto|]. split; [exact C2|]. split; [exact C3|]. split; [exact C4|]. exists ss, e, bins, wls, gg. split; [exact D1|]. split; [exact D2|].
      cbv zeta in *. destruct D as (E1 & E2 & E3 & E4 & E5 & E6 & E7 & E8 & E9). do 8 (split; [assumption|]). intros v V. exact (E9 v (proj1 (SL v) V)). }
  split. { intros name d' wl I GG. destruct (BACK _ _ I) as (d & q & J & -> & LE). destruct (H6 name d wl J GG) as [X|(X & (CA & CE) & SE)]; [now left|right]. split; [exact X|]. split.
    - split; [rewrite PO; exact CA|]. intros o e. rewrite PO. exact (CE o e).
    - assert (CC : forall z, counted_at w name d wl z -> counted_at w name (with_qe d q) wl z).
      { intros z (C1 & C2). split; [exact C1|]. cbn [with_qe d_qe]. specialize (K name). destruct (d_qe d) as [t|v]; cbn [less_efficient] in LE; [|subst q; apply Rmult_lt_0_compat; lra].
        destruct LE as (t' & y & -> & N1 & N2 & G & G' & O). intros xs ys WX GY. rewrite G' in GY. injection GY as <-. apply (wavelengths_faded (k name) name t t' y N1 N2 G' O) in WX. destruct (C2 xs y WX G) as (D1 & D2 & D3). split; [exact D1|]. split; [|exact D3].
        intros u U. apply in_map_iff in U as (b & <- & U). apply Rmult_lt_0_compat; [now apply D2|lra]. }
      destruct SE as [S1 S2]. split.
      + intros kk DC PL. destruct (S1 kk DC PL) as ((z & Z) & IM). split; [exists z; now apply CC|exact IM].
      + intros kk DC PL ss DS. destruct (S2 kk DC PL ss DS) as (z & RE & G1 & G2). exists z. split; [|split; [exact G1|exact G2]].
        destruct RE as (lo & hi & u & v & a & b & R1 & R2 & R3 & R4 & R5 & R6 & R7 & R8 & R9). exists lo, hi, u, v, a, b. do 8 (split; [assumption|]). intros z' I' L'. apply CC. exact (R9 z' I' L'). }
  split. { intros name d' wl I GG. destruct (BACK _ _ I) as (d & q & J & -> & LE). destruct (H7 name d wl J GG) as (R1 & R2 & R3). split; [exact R1|]. split; [|exact R3]. cbn [with_qe d_qe]. destruct (d_qe d) as [t|v]; cbn [less_efficient] in LE; [|now subst].
    destruct LE as (t' & y & -> & N1 & N2 & G & G' & O). intros z Z. apply R2. apply (wavelengths_faded (k name) name t t' y N1 N2 G' O). exact Z. }
  split; [now rewrite PC|]. split; [|exact H10]. intros name d' I. destruct (BACK _ _ I) as (d & q & J & -> & _). exact (H9 name d J).
Qed.
(** What changes in a channel with [k] times the quantum efficiency: the fullest pixels get [k] times the
    light, an automatic frame time is [1/k] times as long, a fixed one stays, and with it nothing has less
    noise. *)
Definition frames_faded (k : R) (c : chan) (T T' : table) (name : string) : Prop :=
  (exists m tf tf', shows T name "MaxSignal_inPixel" (reals m) /\ shows T' name "MaxSignal_inPixel" (reals (map (fun a => a * k) m)) /\
     shows T name "frameTime" (reals (map (fun _ => tf) m)) /\ shows T' name "frameTime" (reals (map (fun _ => tf') m)) /\ 0 < tf /\
     (M_Noise.fixed_frame_time (h_noise c) = None -> tf' = tf / k) /\ (M_Noise.fixed_frame_time (h_noise c) <> None -> tf' = tf)) /\
  (M_Noise.fixed_frame_time (h_noise c) <> None -> exists z z', shows T name "total_noise" (map Num z) /\ shows T' name "total_noise" (map Num z') /\ Forall2 no_better z z').
(** The estimate [y'] with [k ch] times the quantum efficiency in the channel [ch], whatever the frame times *)
Definition as_inefficient_framed (sky : foregrounds_descr) (k : string -> R) (chs : channels) (y y' : target) : Prop :=
  exists T T', x_table y = Some T /\ x_table y' = Some T' /\
  let counted m := photon_column m \/ instrument_column m \/ exists n, in_the_sky sky n /\ glow_column n m in
  forall ch c, In (ch, c) chs ->
    (forall m, counted m -> exists v, shows (cols T) ch m (reals v) /\ shows (cols T') ch m (reals (map (fun a => a * k ch) v))) /\
    (exists t, shows (cols T) ch "QE" (fractions_shown t) /\ shows (cols T') ch "QE" (fractions_shown (map (option_map (fun a => a * k ch)) t))) /\
    (forall m v, ordinary m -> fresh_column y m -> m <> "MaxSignal_inPixel"%string -> m <> "QE"%string -> ~ counted m -> shows (cols T') ch m v <-> shows (cols T) ch m v) /\
    frames_faded (k ch) c (cols T) (cols T') ch.
Theorem C126_quantum_efficiency : forall w fuel p p' l s x sky src h h' k, seeing_mission w fuel p l s x sky src -> payload_faded k p p' -> (forall n, 0 < k n <= 1) ->
  Forall (fun sx => no_instrument_in_the_sky (fst sx) (snd sx)) h -> Forall (fun sx => no_instrument_in_the_sky (fst sx) (snd sx)) h' ->
  exists chs chs' y y', build_channels w fuel p = Some (Ok chs) /\ build_channels w fuel p' = Some (Ok chs') /\ map fst chs' = map fst chs /\
    snd (observe_target s (after chs h) x) = Ok y /\ snd (observe_target s (after chs' h') x) = Ok y' /\ as_inefficient_framed sky k chs y y'.
Proof.
  intros w fuel p p' l s x sky src h h' kf M (PO & PC & l0 & l' & CH & CH' & FL) K AH AH'. assert (l0 = l) as -> by (destruct M as (C & _); congruence). pose proof (seeing_faded kf w fuel p p' l l' s x sky src K PO PC CH' FL M) as M'.
  destruct (seeing_ready _ _ _ _ _ _ _ _ M) as (chs & st & g & fs & B & I & LD & FG & GF & _ & _ & _ & _ & _ & _ & _ & _ & US). destruct (seeing_ready _ _ _ _ _ _ _ _ M') as (chs' & st' & g' & fs' & B' & I' & LD' & FG' & GF' & _ & _ & _ & _ & _ & _ & _ & _ & US').
  pose proof M as (_ & _ & _ & _ & _ & _ & _ & _ & _ & _ & _ & _ & _ & YF & SF & GS & GX & _ & _ & _ & _ & _ & NX & _).
  assert (BA := B). unfold build_channels in BA. rewrite CH in BA. destruct (channels_faded kf w fuel p p' l l' chs ltac:(intros n; specialize (K n); lra) PO PC FL BA) as (chs2 & B2 & F2). assert (chs2 = chs') as -> by (unfold build_channels in B'; rewrite CH' in B'; congruence).
  rewrite LD in LD'. injection LD' as <-. rewrite FG in FG'. injection FG' as <-. rewrite GF in GF'. injection GF' as <-.
  assert (EF := FG). unfold foregrounds_of in EF. rewrite YF in EF. pose proof (stored_are _ _ _ _ _ _ _ _ GX EF GF) as SA.
  assert (N1 : ~ In "MaxSignal_inPixel"%string channel_columns) by (cbn; intuition discriminate). assert (N2 : In "Wavelength"%string channel_columns) by (cbn; auto). assert (N3 : In "WindowSize"%string channel_columns) by (cbn; auto 10).
  destruct (observed_rows channel_columns chs h s x g fs st I channel_columns_quiet N1 N2 N3 (skies_apart chs h AH) (seeing_apart _ _ _ _ _ _ _ _ chs M) FG GF LD US) as (y & T & O & XT & XS & V).
  destruct (observed_rows channel_columns chs' h' s x g fs st I' channel_columns_quiet N1 N2 N3 (skies_apart _ h' AH') (seeing_apart _ _ _ _ _ _ _ _ _ M') FG GF LD US') as (y' & T' & O' & XT' & XS' & V').
  exists chs, chs', y, y'. split; [auto|]. split; [auto|]. split. { clear -F2. induction F2 as [|a a' l l' [E _] F IH]; cbn; auto. now rewrite E, IH. }
  split; [auto|]. split; [auto|]. exists T, T'. split; [auto|]. split; [auto|]. cbv zeta. intros name c IC.
  assert (DM : forall m, (photon_column m \/ instrument_column m \/ exists n, in_the_sky sky n /\ glow_column n m) <-> counted fs m). { intros m. unfold counted, dimmed. split. - intros [X|[X|(n & A1 & A2)]]; auto. left. right. exists n. split; [now apply SA|auto]. - intros [[X|(n & A1 & A2)]|X]; auto. right. right. exists n. split; [now apply SA|auto]. }
  assert (AB : as_built channel_columns (name, c)) by (destruct I as (_ & _ & _ & _ & _ & AB); rewrite Forall_forall in AB; auto).
  destruct (F2_in_l _ _ _ _ F2 IC) as ([n c'] & IC' & EN & BI). cbn [fst snd] in *. subst n. specialize (K name). set (k := kf name) in *. pose proof BI as (B1 & B2' & B3 & B4 & B5 & B6 & B7 & B8 & B9).
  destruct (US name c IC) as (_ & _ & dd & so & t0 & _ & _ & UO). pose proof UO as ((det & DE & PH) & _).
  destruct (V name c det IC DE PH) as (o & tf & total & SR). assert (DE' : describes (h_noise c') det) by (rewrite B4; exact DE). destruct (V' name c' det IC' DE' PH) as (o' & tf' & total' & SR').
  destruct (own_faded channel_columns fs (st_sed st) (g_sky g) k name c c' o ltac:(lra) BI AB (sr_own _ _ _ _ _ _ _ _ _ _ _ _ SR)) as (o2 & OW & NS & PCC & TC & OT). assert (o2 = o') as -> by (pose proof (sr_own _ _ _ _ _ _ _ _ _ _ _ _ SR'); congruence).
  assert (SB : bins_of (name, c') = bins_of (name, c)) by (unfold bins_of; cbn [snd]; now rewrite B1).
  assert (SC : forall m, counted fs m -> ordinary m /\ m <> "MaxSignal_inPixel"%string /\ loud (g_sky g) m = true).
  { intros m [[J|(n & _ & J)]|J].
    - unfold photon_column in J. cbn in J. repeat (destruct J as [<-|J]; [split; [apply ordinary_end; try reflexivity; discriminate|split; [discriminate|destruct (g_sky g); reflexivity]]|]). destruct J.
    - assert (X : forall u, ends_with "_signal" u = false -> ends_with "_MaxSignal_inPixel" u = false -> m <> u) by (intros u W1 W2; destruct J as [->| ->]; now apply suffix_not).
      split; [destruct J as [->| ->]; apply ordinary_suffix; auto|split; [apply X; reflexivity|]].
      unfold loud. assert (Y1 := X "sky TR"%string eq_refl eq_refl). assert (Y2 := X "foreground_transmission"%string eq_refl eq_refl). apply String.eqb_neq in Y1. apply String.eqb_neq in Y2. rewrite Y1, Y2. now destruct (g_sky g).
    - destruct J as [->| ->]; (split; [apply ordinary_end; try reflexivity; discriminate|split; [discriminate|destruct (g_sky g); reflexivity]]). }
  assert (VAL : forall m, m <> "QE"%string -> (counted fs m /\ forall i, value_at o' m i = k * value_at o m i) \/ (~ counted fs m /\ forall i, value_at o' m i = value_at o m i)).
  { intros m NT. destruct (counted_dec fs m) as [J|J]; [left|right]; (split; [exact J|]).
    - destruct (PCC m J) as (v & G1 & G2). eapply value_star; eauto.
    - intros i. unfold value_at, col_of. now rewrite OT. }
  split; [|split; [|split]].
  - intros m J. apply DM in J. destruct (SC m J) as (Q1 & Q2 & Q3). destruct (PCC m J) as (v & G1 & G2). exists v. split; [now apply (sr_shows _ _ _ _ _ _ _ _ _ _ _ _ SR)|now apply (sr_shows _ _ _ _ _ _ _ _ _ _ _ _ SR')].
  - destruct TC as (t & T1 & T2). exists t. assert (OR : ordinary "QE") by (apply ordinary_end; try reflexivity; discriminate). assert (LR : loud (g_sky g) "QE" = true) by (destruct (g_sky g); reflexivity). split; [apply (sr_shows _ _ _ _ _ _ _ _ _ _ _ _ SR)|apply (sr_shows _ _ _ _ _ _ _ _ _ _ _ _ SR')]; auto; discriminate.
  - intros m v OM FR NT NR NP. rewrite DM in NP. apply fresh_loud in FR. rewrite XS in FR. rewrite (sr_shows _ _ _ _ _ _ _ _ _ _ _ _ SR), (sr_shows _ _ _ _ _ _ _ _ _ _ _ _ SR'), OT by auto. tauto.
  - assert (WI : In "WindowSize"%string (names o)) by now apply (sr_base _ _ _ _ _ _ _ _ _ _ _ _ SR).
    assert (DS : counted fs "star_signal_inAperture") by (left; left; cbn; auto).
    assert (SI : In "star_signal_inAperture"%string (names o)). { destruct (PCC _ DS) as (v & G1 & _). apply sget_names. eauto. }
    assert (EW : forall i, value_at o' "WindowSize" i = value_at o "WindowSize" i). { destruct (VAL "WindowSize"%string) as [[N _]|[_ E]]; [discriminate| |exact E]. exfalso. destruct N as [[N|(n & _ & [N|N])]|[N|N]]; [cbn in N; intuition discriminate|symmetry in N; revert N; now apply suffix_not|symmetry in N; revert N; now apply suffix_not|discriminate N|discriminate N]. }
    assert (ES : forall i, value_at o' "star_signal_inAperture" i = k * value_at o "star_signal_inAperture" i) by (destruct (VAL "star_signal_inAperture"%string) as [[_ E]|[N _]]; [discriminate|exact E|contradiction]).
    assert (ME : forall i, maxima o' i = maxima o i * k).
    { intros i. unfold maxima. rewrite NS.
      assert (Y : forall ms, (forall m, In m ms -> In m (names o) /\ contains "Max" m = true) -> sum_over (fun m => value_at o' m i) ms = sum_over (fun m => value_at o m i) ms * k).
      { induction ms as [|m ms IH]; intros A; cbn [sum_over]; [ring|]. rewrite IH by (intros; apply A; now right). destruct (A m (or_introl eq_refl)) as [A1 A2]. destruct (VAL m) as [[_ ->]|[N _]]; [intros ->; discriminate A2|ring|]. exfalso. apply N. exact (peaks_counted fs _ _ name c o AB (sr_own _ _ _ _ _ _ _ _ _ _ _ _ SR) m A1 A2). }
      apply Y. intros m J. now apply filter_In in J. }
    split.
    + exists (map (maxima o) (List.seq 0 (bins_of (name, c)))), tf, tf'. rewrite !map_map, <- !numbers_reals. split; [exact (sr_max _ _ _ _ _ _ _ _ _ _ _ _ SR)|]. split.
      { pose proof (sr_max _ _ _ _ _ _ _ _ _ _ _ _ SR') as X. rewrite SB, numbers_reals in X. rewrite numbers_reals. erewrite map_ext; [exact X|]. intros i. cbv beta. now rewrite ME. }
      split; [exact (sr_frame_shown _ _ _ _ _ _ _ _ _ _ _ _ SR)|]. split; [rewrite <- SB; exact (sr_frame_shown _ _ _ _ _ _ _ _ _ _ _ _ SR')|]. split; [exact (sr_tf _ _ _ _ _ _ _ _ _ _ _ _ SR)|].
      pose proof (sr_frame _ _ _ _ _ _ _ _ _ _ _ _ SR) as FA. pose proof (sr_frame _ _ _ _ _ _ _ _ _ _ _ _ SR') as FB. rewrite B4, SB in FB. destruct (M_Noise.fixed_frame_time (h_noise c)) as [ft|].
      * split; [discriminate|]. intros _. congruence.
      * split; [|congruence]. intros _. destruct PH as (P1 & P2 & _).
        assert (X : tf / k <= tf' <= tf / k). { eapply (frames_between (d_well det) (d_f det) (bins_of (name, c)) (maxima o) (maxima o')); try eassumption; try lra; [apply Rmult_lt_0_compat; lra|]. intros i _. rewrite ME. lra. }
        lra.
    + intros FX. assert (TF : tf' = tf). { pose proof (sr_frame _ _ _ _ _ _ _ _ _ _ _ _ SR) as A1. pose proof (sr_frame _ _ _ _ _ _ _ _ _ _ _ _ SR') as A2. rewrite B4 in A2. destruct (M_Noise.fixed_frame_time (h_noise c)); congruence. } subst tf'.
      apply (noisier_rows _ _ _ _ _ _ _ _ _ _ _ _ _ _ _ _ _ _ _ _ _ _ SR SR' B4 B5 SB NS WI SI k K FX (fun i _ => EW i)).
      * intros m i J S L'. pose proof (sr_pos _ _ _ _ _ _ _ _ _ _ _ _ SR m i J (or_introl S) L'). destruct (VAL m) as [[_ E]|[_ E]]; [intros ->; discriminate S| |]; rewrite E; nra.
      * intros i _. apply ES.
Qed.
Print Assumptions C126_quantum_efficiency.

(** The camera behind the filter that passes a tenth: its frame time is one to ten times as long. *)
Definition shaded_camera : payload :=
  {| p_optics := Some {| o_elements := M_Optics.Several [("filter"%string, smoked_glass); ("M1"%string, mirror)]; o_force := Some true; o_area := 3 |}; p_custom := None; p_channel := p_channel camera |}.
Lemma camera_shaded : payload_behind "filter" smoked_glass camera shaded_camera.
Proof.
  split; [reflexivity|]. split; [reflexivity|]. split.
  - do 2 eexists. split; [reflexivity|]. split; [reflexivity|]. split; [reflexivity|]. split; [reflexivity|]. split; [cbn; discriminate|]. exists "M1"%string. split; reflexivity.
  - intros l n c own [= <-] [[= <- <-]|[]] [= <-]; cbn; intuition discriminate.
Qed.
Example C126_filter_ex fuel : exists chs chs' y y' T T' m tf tf', build_channels sharp fuel camera = Some (Ok chs) /\ build_channels sharp fuel shaded_camera = Some (Ok chs') /\
  snd (observe_target run3 chs vega) = Ok y /\ snd (observe_target run3 chs' vega) = Ok y' /\ x_table y = Some T /\ x_table y' = Some T' /\
  shows (cols T) "phot" "frameTime" (reals (map (fun _ => tf) m)) /\ shows (cols T') "phot" "frameTime" (reals (map (fun _ => tf') (m : list R))) /\ tf <= tf' <= 10 * tf.
Proof.
  destruct with_sunglasses as [_ G].
  destruct (C126_grey_filter sharp fuel camera shaded_camera _ run3 vega _ _ [] [] _ _ _ (camera_sees fuel) camera_shaded G ltac:(lra) (Forall_nil _) (Forall_nil _)) as (chs & chs' & y & y' & B & B1 & _ & O & O' & T & T' & XT & XT' & X). cbv zeta in X.
  destruct (channel_of sharp fuel camera [("phot"%string, auto_phot)] chs "phot" auto_phot eq_refl B (or_introl eq_refl)) as (c & IC).
  destruct (X "phot"%string c IC) as (_ & _ & _ & ((m & m' & tf & tf' & _ & _ & _ & F1 & F2 & P & L & _) & _)). exists chs, chs', y, y', T, T', m, tf, tf'. repeat (split; [assumption|]). lra.
Qed.
(** The camera with half its quantum efficiency: its frame time is twice as long. *)
Definition weary_camera : payload :=
  {| p_optics := p_optics camera; p_custom := None; p_channel := Some (Ordered [("phot"%string, with_qe auto_phot (QeValue (0.5 * 0.5)))]) |}.
Lemma camera_weary : payload_faded (fun _ => 0.5) camera weary_camera.
Proof. split; [reflexivity|]. split; [reflexivity|]. do 2 eexists. split; [reflexivity|]. split; [reflexivity|]. constructor; [|constructor]. split; [reflexivity|]. eexists. split; reflexivity. Qed.
Example C126_efficiency_ex fuel : exists chs chs' y y' T T' m tf tf', build_channels sharp fuel camera = Some (Ok chs) /\ build_channels sharp fuel weary_camera = Some (Ok chs') /\
  snd (observe_target run3 chs vega) = Ok y /\ snd (observe_target run3 chs' vega) = Ok y' /\ x_table y = Some T /\ x_table y' = Some T' /\
  shows (cols T) "phot" "frameTime" (reals (map (fun _ => tf) m)) /\ shows (cols T') "phot" "frameTime" (reals (map (fun _ => tf') (m : list R))) /\ 0 < tf /\ tf' = 2 * tf.
Proof.
  destruct (C126_quantum_efficiency sharp fuel camera weary_camera _ run3 vega _ _ [] [] _ (camera_sees fuel) camera_weary ltac:(intros; lra) (Forall_nil _) (Forall_nil _)) as (chs & chs' & y & y' & B & B1 & _ & O & O' & T & T' & XT & XT' & X). cbv zeta in X.
  destruct (seeing_ready _ _ _ _ _ _ _ _ (camera_sees fuel)) as (chs2 & st & g & fs & B2 & _ & _ & _ & _ & _ & _ & _ & _ & _ & _ & _ & HN & _). assert (chs2 = chs) as -> by congruence.
  destruct (channel_of sharp fuel camera [("phot"%string, auto_phot)] chs "phot" auto_phot eq_refl B (or_introl eq_refl)) as (c & IC).
  assert (FN : M_Noise.fixed_frame_time (h_noise c) = None). { destruct (HN "phot"%string c IC) as (d & q & kk & [[= <-]|[]] & _ & _ & _ & -> & _). reflexivity. }
  destruct (X "phot"%string c IC) as (_ & _ & _ & ((m & tf & tf' & _ & _ & F1 & F2 & P & L & _) & _)). exists chs, chs', y, y', T, T', m, tf, tf'. repeat (split; [assumption|]). rewrite (L FN). lra.
Qed.
