(** A star nearer or farther, and automatic frame times (C126). *)
From Coq Require Import Reals Lra Psatz Lia.
From Verif Require Import Base Dict PyStr XR M_Signal M_Optics M_Light M_Bins M_Psf M_Omega M_Star M_Source M_Foreground S_Signal S_Optics S_Light S_Bins S_Star S_Success S_Foreground L_Signal L_Optics L_Light L_Bins P_Optics P_Bins P_Windows P_Light P_Success P_Omega P_Star P_Source P_Foreground.
From Verif Require M_Noise P_Noise L_Foreground S_Source P_Star.
From Verif Require Import S_Noise L_Noise.
From Verif Require Import M_Table L_Table P_Table M_Observe S_Observe L_Observe L_Stages L_Outcome S_Works S_Complete P_Observe P_Outcome P_Works P_Complete P_Instance M_Build S_Build S_Ready L_Build L_Ready P_Build P_Ready P_Mission P_Telescope S_Full P_Full S_Bright L_Bright P_Bright P_BrightMission L_Compare S_Area P_Area S_Seen L_Seen P_Seen.
Open Scope list_scope.
Open Scope R_scope.

(** All maxima between [lo] and [hi] times the others *)
Lemma frames_between w f n m m' tf tf' lo hi : 0 < f * w -> 0 < lo -> 0 < hi -> (forall i, (i < n)%nat -> lo * m i <= m' i <= hi * m i) -> auto_frame_time w f n m tf -> auto_frame_time w f n m' tf' -> tf / hi <= tf' <= tf / lo.
Proof.
  intros P LO HI LE (T & A & i & I & E) (T' & A' & j & J & E'). pose proof (A j J) as Aj. pose proof (A' i I) as Ai. destruct (LE j J) as [L1 L2]. destruct (LE i I) as [L3 L4].
  assert (0 < m' j) by (destruct (Rle_lt_dec (m' j) 0); [nra|auto]). assert (0 < m i) by (destruct (Rle_lt_dec (m i) 0); [nra|auto]). split.
  - apply (Rmult_le_reg_r hi); [auto|]. replace (tf / hi * hi) with tf by (field; lra). apply (Rmult_le_reg_l (m' j)); [auto|]. apply Rle_trans with (hi * (m j * tf)); [nra|]. apply Rle_trans with (hi * (f * w)); [nra|]. rewrite <- E'. nra.
  - apply (Rmult_le_reg_r lo); [auto|]. replace (tf / lo * lo) with tf by (field; lra). apply (Rmult_le_reg_l (m i)); [auto|]. rewrite E. apply Rle_trans with (tf' * (lo * m i)); [nra|]. apply Rle_trans with (tf' * m' i); [nra|]. nra.
Qed.

Lemma xr_map_inj (a b : list xr) : map Num a = map Num b -> a = b.
Proof. revert b. induction a as [|v a IH]; intros [|v' b]; cbn; try discriminate; auto. intros [= -> E]. f_equal. auto. Qed.
(** What changes in the rows of a channel in which the columns [P] are [q] times the others *)
Definition frames_move (q : R) (c : chan) (T T' : table) (name : string) : Prop :=
  (exists m m' tf tf', shows T name "MaxSignal_inPixel" (reals m) /\ shows T' name "MaxSignal_inPixel" (reals m') /\ Forall2 (fun a b => Rmin 1 q * a <= b <= Rmax 1 q * a) m m' /\
     shows T name "frameTime" (reals (map (fun _ => tf) m)) /\ shows T' name "frameTime" (reals (map (fun _ => tf') m)) /\ 0 < tf /\ tf / Rmax 1 q <= tf' <= tf / Rmin 1 q /\
     (M_Noise.fixed_frame_time (h_noise c) <> None -> tf' = tf)) /\
  (M_Noise.fixed_frame_time (h_noise c) <> None -> exists z z', shows T name "total_noise" (map Num z) /\ shows T' name "total_noise" (map Num z') /\ (q <= 1 -> Forall2 no_better z z') /\ (1 <= q -> Forall2 no_better z' z)).
Lemma scaled_rows (P : string -> Prop) q s s' g g' fs fs' st st' T T' name c c' o o' det tf tf' total total' : seen_rows channel_columns s g fs st T name c o det tf total -> seen_rows channel_columns s' g' fs' st' T' name c' o' det tf' total' ->
  h_noise c' = h_noise c -> h_common c' = h_common c -> bins_of (name, c') = bins_of (name, c) -> names o' = names o -> 0 < q ->
  (forall m, (P m /\ forall i, value_at o' m i = q * value_at o m i) \/ (~ P m /\ forall i, value_at o' m i = value_at o m i)) ->
  P "star_signal_inAperture"%string -> ~ P "WindowSize"%string -> In "star_signal_inAperture"%string (names o) -> frames_move q c T T' name.
Proof.
  intros SR SR' SN SC SB NS Q VAL PS PW SI. assert (PH : physical det) by apply (sr_detector _ _ _ _ _ _ _ _ _ _ _ _ SR). assert (N3 : In "WindowSize"%string channel_columns) by (cbn; auto 10).
  assert (MN : 0 < Rmin 1 q) by (apply Rmin_pos; lra). assert (MX : 0 < Rmax 1 q) by (pose proof (Rmax_l 1 q); lra). pose proof (Rmin_l 1 q) as m1. pose proof (Rmin_r 1 q) as m2. pose proof (Rmax_l 1 q) as x1. pose proof (Rmax_r 1 q) as x2.
  assert (ML : forall i, (i < bins_of (name, c))%nat -> Rmin 1 q * maxima o i <= maxima o' i <= Rmax 1 q * maxima o i).
  { intros i L. unfold maxima. rewrite NS, <- !sum_over_times. split; apply sum_over_le; intros k J; apply filter_In in J as [J1 J2]; pose proof (sr_pos _ _ _ _ _ _ _ _ _ _ _ _ SR k i J1 (or_intror (or_introl J2)) L); destruct (VAL k) as [[_ E]|[_ E]]; rewrite E; nra. }
  split.
  - exists (map (maxima o) (List.seq 0 (bins_of (name, c)))), (map (maxima o') (List.seq 0 (bins_of (name, c)))), tf, tf'. rewrite !map_map, <- !numbers_reals.
    split; [exact (sr_max _ _ _ _ _ _ _ _ _ _ _ _ SR)|]. split; [rewrite <- SB; exact (sr_max _ _ _ _ _ _ _ _ _ _ _ _ SR')|]. split; [now apply seq_F2|].
    split; [exact (sr_frame_shown _ _ _ _ _ _ _ _ _ _ _ _ SR)|]. split; [rewrite <- SB; exact (sr_frame_shown _ _ _ _ _ _ _ _ _ _ _ _ SR')|]. pose proof (sr_tf _ _ _ _ _ _ _ _ _ _ _ _ SR) as TP. split; [exact TP|].
    pose proof (sr_frame _ _ _ _ _ _ _ _ _ _ _ _ SR) as FA. pose proof (sr_frame _ _ _ _ _ _ _ _ _ _ _ _ SR') as FB. rewrite SN, SB in FB. destruct (M_Noise.fixed_frame_time (h_noise c)) as [ft|].
    + rewrite FA in FB. injection FB as <-. split; [|auto]. split.
      * apply (Rmult_le_reg_r (Rmax 1 q)); [auto|]. replace (tf / Rmax 1 q * Rmax 1 q) with tf by (field; lra). nra.
      * apply (Rmult_le_reg_r (Rmin 1 q)); [auto|]. replace (tf / Rmin 1 q * Rmin 1 q) with tf by (field; lra). nra.
    + split; [|congruence]. destruct PH as (PWw & PFf & _). eapply frames_between; eauto. nra.
  - intros FX. assert (WI : In "WindowSize"%string (names o)) by now apply (sr_base _ _ _ _ _ _ _ _ _ _ _ _ SR).
    assert (EW : forall i, value_at o' "WindowSize" i = value_at o "WindowSize" i) by (destruct (VAL "WindowSize"%string) as [[N _]|[_ E]]; [destruct (PW N)|exact E]).
    assert (ES : forall i, value_at o' "star_signal_inAperture" i = q * value_at o "star_signal_inAperture" i) by (destruct (VAL "star_signal_inAperture"%string) as [[_ E]|[N _]]; [exact E|destruct (N PS)]).
    assert (IK : 0 < / q) by now apply Rinv_0_lt_compat.
    assert (D1 : q <= 1 -> exists z z', shows T name "total_noise" (map Num z) /\ shows T' name "total_noise" (map Num z') /\ Forall2 no_better z z').
    { intros L. apply (noisier_rows _ _ _ _ _ _ _ _ _ _ _ _ _ _ _ _ _ _ _ _ _ _ SR SR' SN SC SB NS WI SI q (conj Q L) FX (fun i _ => EW i)).
      - intros m i J S L'. pose proof (sr_pos _ _ _ _ _ _ _ _ _ _ _ _ SR m i J (or_introl S) L'). destruct (VAL m) as [[_ E]|[_ E]]; rewrite E; nra.
      - intros i _. apply ES. }
    assert (D2 : 1 <= q -> exists z z', shows T' name "total_noise" (map Num z) /\ shows T name "total_noise" (map Num z') /\ Forall2 no_better z z').
    { intros L. assert (LI : / q <= 1). { rewrite <- Rinv_1. apply Rinv_le_contravar; lra. }
      apply (noisier_rows _ _ _ _ _ _ _ _ _ _ _ _ _ _ _ _ _ _ _ _ _ _ SR' SR (eq_sym SN) (eq_sym SC) (eq_sym SB) (eq_sym NS)) with (q := / q); auto; try (now rewrite SN).
      - now rewrite NS.
      - now rewrite NS.
      - intros m i J S LL. pose proof (sr_pos _ _ _ _ _ _ _ _ _ _ _ _ SR' m i J (or_introl S) LL) as P0. destruct (VAL m) as [[_ E]|[_ E]]; rewrite E in *; [rewrite <- Rmult_assoc, Rinv_l by lra; lra|]. rewrite <- (Rmult_1_l (value_at o m i)) at 2. apply Rmult_le_compat_r; auto.
      - intros i _. rewrite ES. rewrite <- Rmult_assoc, Rinv_l by lra. ring. }
    destruct (Rle_lt_dec q 1) as [L|L].
    + destruct (D1 L) as (z & z' & Z1 & Z2 & Z3). exists z, z'. split; [auto|]. split; [auto|]. split; [auto|]. intros L'. destruct (D2 L') as (u & u' & U1 & U2 & U3).
      pose proof (xr_map_inj _ _ (shows_fun _ _ _ _ _ Z1 U2)) as W1. pose proof (xr_map_inj _ _ (shows_fun _ _ _ _ _ Z2 U1)) as W2. now subst.
    + destruct (D2 ltac:(lra)) as (u & u' & U1 & U2 & U3). exists u', u. split; [auto|]. split; [auto|]. split; [intros; lra|auto].
Qed.

(** The estimate [y'] for a star [q] times as bright as that of [y]: the fullest pixels and the frame
    times change by a factor between 1 and [q]; fixed frame times do not change, and with them the noise
    is compared. *)
Definition as_bright_framed (q : R) (chs : channels) (y y' : target) : Prop :=
  exists T T', x_table y = Some T /\ x_table y' = Some T' /\
  forall name c, In (name, c) chs ->
    (forall k, star_column k -> exists v, shows (cols T) name k (reals v) /\ shows (cols T') name k (reals (map (fun a => a * q) v))) /\
    (forall k v, ordinary k -> fresh_column y k -> k <> "MaxSignal_inPixel"%string -> ~ star_column k -> shows (cols T') name k v <-> shows (cols T) name k v) /\
    frames_move q c (cols T) (cols T') name.
Lemma framed w fuel p l s x x' f src q h h' : seeing_mission w fuel p l s x f src -> seeing_mission w fuel p l s x' f src -> x_sky x' = x_sky x -> 0 < q ->
  (forall st, load s x = Ok st -> exists st', load s x' = Ok st' /\ S_Source.times_k q (st_sed st) (st_sed st')) ->
  Forall (fun sx => no_instrument_in_the_sky (fst sx) (snd sx)) h -> Forall (fun sx => no_instrument_in_the_sky (fst sx) (snd sx)) h' ->
  exists chs y y', build_channels w fuel p = Some (Ok chs) /\ snd (observe_target s (after chs h) x) = Ok y /\ snd (observe_target s (after chs h') x') = Ok y' /\ as_bright_framed q chs y y'.
Proof.
  intros M M' SKY Q LX AH AH'. destruct (seeing_ready _ _ _ _ _ _ _ _ M) as (chs & st & g & fs & B & I & LD & FG & GF & _ & _ & _ & _ & _ & _ & _ & _ & US). destruct (seeing_ready _ _ _ _ _ _ _ _ M') as (chs' & st' & g' & fs' & B' & I' & LD' & FG' & GF' & _ & _ & _ & _ & _ & _ & _ & _ & US').
  assert (chs' = chs) as -> by congruence. clear B' I'. rewrite SKY, FG in FG'. injection FG' as <-. rewrite GF in GF'. injection GF' as <-. destruct (LX st LD) as (st2 & LD2 & TK). assert (st2 = st') as -> by congruence. clear LD2 LX.
  assert (AP : columns_apart channel_columns chs s x). { intros _ g0 G0. apply foreign_columns. intros fs0 E. eapply M; eauto. }
  assert (AP' : columns_apart channel_columns chs s x'). { intros _ g0 G0. apply foreign_columns. intros fs0 E. eapply M'; eauto. }
  assert (N1 : ~ In "MaxSignal_inPixel"%string channel_columns) by (cbn; intuition discriminate). assert (N2 : In "Wavelength"%string channel_columns) by (cbn; auto). assert (N3 : In "WindowSize"%string channel_columns) by (cbn; auto 10).
  destruct (observed_rows channel_columns chs h s x g fs st I channel_columns_quiet N1 N2 N3 (skies_apart chs h AH) AP FG GF LD US) as (y & T & O & XT & XS & V).
  destruct (observed_rows channel_columns chs h' s x' g fs st' I channel_columns_quiet N1 N2 N3 (skies_apart chs h' AH') AP' ltac:(now rewrite SKY) GF LD' US') as (y' & T' & O' & XT' & XS' & V').
  exists chs, y, y'. split; [auto|]. split; [auto|]. split; [auto|]. exists T, T'. split; [auto|]. split; [auto|]. intros name c IC.
  assert (AB : as_built channel_columns (name, c)) by (destruct I as (_ & _ & _ & _ & _ & AB); rewrite Forall_forall in AB; auto).
  destruct (US name c IC) as (_ & _ & dd & so & t0 & _ & _ & UO). pose proof UO as ((det & DE & PH) & _).
  destruct (V name c det IC DE PH) as (o & tf & total & SR). destruct (V' name c det IC DE PH) as (o' & tf' & total' & SR').
  destruct (own_scale channel_columns fs (st_sed st) (g_sky g) q (name, c) o ltac:(lra) AB (sr_own _ _ _ _ _ _ _ _ _ _ _ _ SR)) as (o2 & OW & NS & PC & OT).
  apply times_k_scaled in TK. rewrite <- TK in OW. assert (o2 = o') as -> by (pose proof (sr_own _ _ _ _ _ _ _ _ _ _ _ _ SR'); congruence).
  assert (SC : forall m, star_column m -> ordinary m /\ m <> "MaxSignal_inPixel"%string /\ loud (g_sky g) m = true).
  { intros m J. unfold star_column in J. cbn in J. repeat (destruct J as [<-|J]; [split; [apply ordinary_end; try reflexivity; discriminate|split; [discriminate|destruct (g_sky g); reflexivity]]|]). destruct J. }
  assert (VAL : forall m, (star_column m /\ forall i, value_at o' m i = q * value_at o m i) \/ (~ star_column m /\ forall i, value_at o' m i = value_at o m i)).
  { intros m. destruct (in_dec string_dec m ["starFlux"; "starSignal"; "star_signal_inAperture"; "star_MaxSignal_inPixel"]%string) as [J|J]; [left|right]; (split; [exact J|]).
    - destruct (PC m J) as (v & G1 & G2). eapply value_star; eauto.
    - intros i. unfold value_at, col_of. now rewrite OT. }
  split; [|split].
  - intros m J. destruct (SC m J) as (Q1 & Q2 & Q3). destruct (PC m J) as (v & G1 & G2). exists v. split; [now apply (sr_shows _ _ _ _ _ _ _ _ _ _ _ _ SR)|now apply (sr_shows _ _ _ _ _ _ _ _ _ _ _ _ SR')].
  - intros m v OM FR NT NP. apply fresh_loud in FR. rewrite XS in FR. rewrite (sr_shows _ _ _ _ _ _ _ _ _ _ _ _ SR), (sr_shows _ _ _ _ _ _ _ _ _ _ _ _ SR'), OT by auto. tauto.
  - apply (scaled_rows star_column q s s g g fs fs st st' (cols T) (cols T') name c c o o' det tf tf' total total' SR SR' eq_refl eq_refl eq_refl NS Q VAL); [cbn; auto|cbn; intuition discriminate|].
    destruct (PC "star_signal_inAperture"%string) as (v & G & _); [cbn; auto|]. apply sget_names. eauto.
Qed.

(** A star [k] times as far: automatic frame times are up to [k^2] times as long. *)
Theorem C126_distance : forall w fuel p l s x f src h h' D k, seeing_mission w fuel p l s x f src -> t_D (x_stellar x) = Some D -> 0 < k ->
  Forall (fun sx => no_instrument_in_the_sky (fst sx) (snd sx)) h -> Forall (fun sx => no_instrument_in_the_sky (fst sx) (snd sx)) h' ->
  exists chs y y', build_channels w fuel p = Some (Ok chs) /\ snd (observe_target s (after chs h) x) = Ok y /\ snd (observe_target s (after chs h') (at_distance x (k * D))) = Ok y' /\ as_bright_framed (/ k ^ 2) chs y y'.
Proof.
  intros w fuel p l s x f src h h' D k M HD K AH AH'. assert (IK : 0 < k ^ 2) by nra.
  pose proof M as (H1 & H2 & H3 & H4 & H5 & H6 & H7 & H8 & H9 & H10 & H11 & H12 & H13 & H14 & H15 & H16 & H17 & H18 & H19 & H20 & H21 & H22 & H23 & H24).
  assert (D0 : 0 < D) by (destruct H21 as (D1 & T1 & M1 & r1 & E & _ & _ & _ & P & _); congruence).
  apply (framed w fuel p l s x _ f src); auto; try apply Rinv_0_lt_compat; auto.
  - unfold seeing_mission. cbn [at_distance x_sky x_star_name x_stellar]. do 20 (split; [assumption|]). split; [|split; [exact H22|split; [exact H23|exact H24]]].
    destruct H21 as (D1 & T1 & M1 & r1 & E & E1 & E2 & E3 & P & P1). exists (k * D), T1, M1, r1. cbn [t_D t_Teff t_M t_R S_Source.with_D]. do 4 (split; [auto|]). split; [nra|auto].
  - intros st LD. apply load_distance; auto. lra.
Qed.
Print Assumptions C126_distance.
(** A star with [k] times the radius: they are down to [1/k^2] times as long. *)
Theorem C126_radius : forall w fuel p l s x f src h h' r k, seeing_mission w fuel p l s x f src -> t_R (x_stellar x) = Some r -> 0 < k ->
  Forall (fun sx => no_instrument_in_the_sky (fst sx) (snd sx)) h -> Forall (fun sx => no_instrument_in_the_sky (fst sx) (snd sx)) h' ->
  exists chs y y', build_channels w fuel p = Some (Ok chs) /\ snd (observe_target s (after chs h) x) = Ok y /\ snd (observe_target s (after chs h') (with_radius x (k * r))) = Ok y' /\ as_bright_framed (k ^ 2) chs y y'.
Proof.
  intros w fuel p l s x f src h h' r k M HR K AH AH'. assert (IK : 0 < k ^ 2) by nra.
  pose proof M as (H1 & H2 & H3 & H4 & H5 & H6 & H7 & H8 & H9 & H10 & H11 & H12 & H13 & H14 & H15 & H16 & H17 & H18 & H19 & H20 & H21 & H22 & H23 & H24).
  assert (R0 : 0 < r) by (destruct H21 as (D1 & T1 & M1 & r1 & _ & _ & _ & E & _ & _ & _ & P); congruence).
  apply (framed w fuel p l s x _ f src); auto.
  - unfold seeing_mission. cbn [with_radius x_sky x_star_name x_stellar]. do 20 (split; [assumption|]). split; [|split; [exact H22|split; [exact H23|exact H24]]].
    destruct H21 as (D1 & T1 & M1 & r1 & E & E1 & E2 & E3 & P & P1 & P2 & P3). exists D1, T1, M1, (k * r). cbn [t_D t_Teff t_M t_R S_Source.with_R]. do 4 (split; [auto|]). do 3 (split; [auto|]). nra.
  - intros st LD. destruct H20 as (v & V1 & V2 & V3). eapply load_radius; eauto.
Qed.
Print Assumptions C126_radius.

(** ** The area of the telescope *)
Lemma seeing_area w fuel p l s x f src A k : seeing_mission w fuel p l s x f src -> has_area p A -> 0 < k -> seeing_mission w fuel (with_area p (k * A)) l s x f src.
Proof.
  intros (H1 & H2 & H3 & H4 & H5 & H6 & H7) HA K. unfold seeing_mission. cbn [with_area p_channel p_custom]. do 4 (split; [assumption|]). split; [|split; [|exact H7]].
  - intros name d I. destruct (H5 name d I) as [C|C]; [left|right].
    + destruct C as (C1 & C2 & C3 & C4). split; [eapply common_area; eauto|]. split; [auto|]. split; [intros v; rewrite slit_area; auto|exact C4].
    + destruct C as (C1 & C2 & C3 & C4 & ss & e & bins & wls & gg & D1 & D2 & D). split; [eapply common_area; eauto|]. split; [exact C2|]. split; [exact C3|]. split; [exact C4|]. exists ss, e, bins, wls, gg. split; [exact D1|]. split; [exact D2|].
      cbv zeta in *. destruct D as (E1 & E2 & E3 & E4 & E5 & E6 & E7 & E8 & E9). do 8 (split; [assumption|]). intros v V. exact (E9 v (proj1 (slit_area _ _ _ _) V)).
  - intros name d wl I G. destruct (H6 name d wl I G) as [X|(F & (CA & CE) & X)]; [now left|right]. split; [exact F|]. split; [|exact X]. destruct HA as (o & PO & EA). pose proof (CA o PO) as AP. unfold with_area. cbn [p_optics]. rewrite PO. split.
    + intros o' [= <-]. cbn [o_area]. rewrite EA in AP. nra.
    + intros o' e [E|E] EL; [|now apply (CE o' e); [right|]]. cbn in E. injection E as ->. apply (CE (o_elements o) e); [left; now rewrite PO|exact EL].
Qed.
(** The estimate [y'] of a telescope of [k] times the area of that of [y] *)
Definition as_large_framed (k : R) (chs : channels) (y y' : target) : Prop :=
  exists T T', x_table y = Some T /\ x_table y' = Some T' /\
  forall name c, In (name, c) chs ->
    (forall m, photon_column m -> exists v, shows (cols T) name m (reals v) /\ shows (cols T') name m (reals (map (fun a => a * k) v))) /\
    (forall m v, ordinary m -> fresh_column y m -> m <> "MaxSignal_inPixel"%string -> ~ photon_column m -> shows (cols T') name m v <-> shows (cols T) name m v) /\
    frames_move k c (cols T) (cols T') name.
Theorem C126_area : forall w fuel p l s x f src h h' A k, seeing_mission w fuel p l s x f src -> has_area p A -> 0 < k ->
  Forall (fun sx => no_instrument_in_the_sky (fst sx) (snd sx)) h -> Forall (fun sx => no_instrument_in_the_sky (fst sx) (snd sx)) h' ->
  exists chs chs' y y', build_channels w fuel p = Some (Ok chs) /\ build_channels w fuel (with_area p (k * A)) = Some (Ok chs') /\
    snd (observe_target s (after chs h) x) = Ok y /\ snd (observe_target s (after chs' h') x) = Ok y' /\ as_large_framed k chs y y'.
Proof.
  intros w fuel p l s x f src h h' A k M HA K AH AH'. pose proof (seeing_area _ _ _ _ _ _ _ _ A k M HA K) as M'.
  destruct (seeing_ready _ _ _ _ _ _ _ _ M) as (chs & st & g & fs & B & I & LD & FG & GF & _ & _ & _ & _ & _ & _ & _ & _ & US). destruct (seeing_ready _ _ _ _ _ _ _ _ M') as (chs' & st' & g' & fs' & B' & I' & LD' & FG' & GF' & _ & _ & _ & _ & _ & _ & _ & _ & US').
  pose proof (channels_area w fuel p k A chs HA B) as BB. assert (chs' = widened k chs) as -> by congruence.
  rewrite LD in LD'. injection LD' as <-. rewrite FG in FG'. injection FG' as <-. rewrite GF in GF'. injection GF' as <-.
  assert (AP : forall cs, columns_apart channel_columns cs s x). { intros cs _ g0 G0. apply foreign_columns. intros fs0 E. eapply M; eauto. }
  assert (N1 : ~ In "MaxSignal_inPixel"%string channel_columns) by (cbn; intuition discriminate). assert (N2 : In "Wavelength"%string channel_columns) by (cbn; auto). assert (N3 : In "WindowSize"%string channel_columns) by (cbn; auto 10).
  destruct (observed_rows channel_columns chs h s x g fs st I channel_columns_quiet N1 N2 N3 (skies_apart chs h AH) (AP _) FG GF LD US) as (y & T & O & XT & XS & V).
  destruct (observed_rows channel_columns (widened k chs) h' s x g fs st I' channel_columns_quiet N1 N2 N3 (skies_apart _ h' AH') (AP _) FG GF LD US') as (y' & T' & O' & XT' & XS' & V').
  exists chs, (widened k chs), y, y'. split; [auto|]. split; [auto|]. split; [auto|]. split; [auto|]. exists T, T'. split; [auto|]. split; [auto|]. intros name c IC.
  assert (AB : as_built channel_columns (name, c)) by (destruct I as (_ & _ & _ & _ & _ & AB); rewrite Forall_forall in AB; auto).
  assert (IC' : In (name, widen k c) (widened k chs)) by (unfold widened; apply (in_map (fun a => (fst a, widen k (snd a))) chs (name, c) IC)).
  destruct (US name c IC) as (_ & _ & dd & so & t0 & _ & _ & UO). pose proof UO as ((det & DE & PH) & _).
  destruct (V name c det IC DE PH) as (o & tf & total & SR). destruct (V' name (widen k c) det IC' DE PH) as (o' & tf' & total' & SR').
  destruct (own_area channel_columns fs (st_sed st) (g_sky g) k name c o ltac:(lra) AB (sr_own _ _ _ _ _ _ _ _ _ _ _ _ SR)) as (o2 & OW & NS & PC & OT). assert (o2 = o') as -> by (pose proof (sr_own _ _ _ _ _ _ _ _ _ _ _ _ SR'); congruence).
  assert (SC : forall m, photon_column m -> ordinary m /\ m <> "MaxSignal_inPixel"%string /\ loud (g_sky g) m = true).
  { intros m J. unfold photon_column in J. cbn in J. repeat (destruct J as [<-|J]; [split; [apply ordinary_end; try reflexivity; discriminate|split; [discriminate|destruct (g_sky g); reflexivity]]|]). destruct J. }
  split; [|split].
  - intros m J. destruct (SC m J) as (Q1 & Q2 & Q3). destruct (PC m J) as (v & G1 & G2). exists v. split; [now apply (sr_shows _ _ _ _ _ _ _ _ _ _ _ _ SR)|now apply (sr_shows _ _ _ _ _ _ _ _ _ _ _ _ SR')].
  - intros m v OM FR NT NP. apply fresh_loud in FR. rewrite XS in FR. rewrite (sr_shows _ _ _ _ _ _ _ _ _ _ _ _ SR), (sr_shows _ _ _ _ _ _ _ _ _ _ _ _ SR'), OT by auto. tauto.
  - apply (scaled_rows photon_column k s s g g fs fs st st (cols T) (cols T') name c (widen k c) o o' det tf tf' total total' SR SR' eq_refl eq_refl eq_refl NS K).
    + intros m. destruct (in_dec string_dec m ["starSignal"; "star_signal_inAperture"; "star_MaxSignal_inPixel"]%string) as [J|J]; [left|right]; (split; [exact J|]).
      * destruct (PC m J) as (v & G1 & G2). eapply value_star; eauto.
      * intros i. unfold value_at, col_of. now rewrite OT.
    + cbn; auto.
    + cbn; intuition discriminate.
    + destruct (PC "star_signal_inAperture"%string) as (v & G & _); [cbn; auto|]. apply sget_names. eauto.
Qed.
Print Assumptions C126_area.

(** "With automatic frame times, too, a fainter star has no less noise": refuted.  The longer frames have
    room for one more read. *)
Definition noisy_reader : M_Noise.channel :=
  {| M_Noise.ch_name := "A"; M_Noise.well_depth := Fin 100; M_Noise.f_well_depth := Some (Fin (1 / 2)); M_Noise.fixed_frame_time := None;
     M_Noise.freqNDR := Fin 1; M_Noise.multiaccumM := None; M_Noise.dark_current := Fin 0; M_Noise.read_noise := Fin 1000; M_Noise.noiseX := None; M_Noise.ch_custom := None |}.
Definition one_row (star : R) : table :=
  [("chName", [Txt "A"]); ("Wavelength", [Num (Fin 1.5)]); ("WindowSize", [Num (Fin 1)]); ("star_signal_inAperture", [Num (Fin star)]); ("MaxSignal_inPixel", [Num (Fin star)])]%string.
Lemma one_row_noise star : 0 < star -> exists out, M_Noise.noise_in_channel (one_row star) noisy_reader None = Ok out /\
  let n := reads (50 / star) 1 in entry_at out "total_noise" 0 (Fin (sqrt (shot_gain n * star / 3600 + read_gain n 1 * 1000 ^ 2 / (50 / star) / 3600) / star)).
Proof.
  intros P. set (v := fun (k : string) (_ : nat) => if String.eqb k "Wavelength" then 1.5 else if String.eqb k "WindowSize" then 1 else star). set (d := {| d_well := 100; d_f := 1 / 2; d_freq := 1; d_M := 1; d_dark := 0; d_read := 1000; d_X := 0 |}).
  assert (H : holds (one_row star) "A" 1 (needed ++ signal_columns (one_row star)) v). { intros k I. cbn in I. repeat (destruct I as [<-|I]; [split; [reflexivity|intros; unfold v; cbn; lra]|]). destruct I. }
  assert (DE : describes noisy_reader d) by (repeat split; auto). assert (PH : physical d) by (unfold physical, d; cbn; lra).
  assert (FD : exists i, (i < 1)%nat /\ 0 < v "MaxSignal_inPixel"%string i) by (exists 0%nat; split; [lia|exact P]).
  destruct (P_Noise.C12_automatic_frame_time (one_row star) noisy_reader None d 1 v DE PH ltac:(lia) eq_refl H FD) as (out & tf & E & T & A & _ & i & L & F).
  destruct (P_Noise.C14_row_formula (one_row star) noisy_reader d 1 v DE PH ltac:(lia) eq_refl H FD) as (out' & tf' & E' & _ & X). rewrite E in E'. injection E' as <-.
  destruct (X 0%nat ltac:(lia)) as (A' & _ & _ & _ & TN). specialize (TN P). destruct (A 0%nat ltac:(lia)) as (col & G & N0). destruct A' as (col' & G' & N'). assert (tf' = tf) as -> by congruence.
  assert (tf = 50 / star) as ->. { change (v "MaxSignal_inPixel"%string i) with star in F. cbn in F. apply (Rmult_eq_reg_l star); [|lra]. rewrite F. field. lra. }
  exists out. split; [exact E|]. cbv zeta. clear -TN.
  change (signal_columns (one_row star)) with ["star_signal_inAperture"%string] in TN. unfold dark2, read2, photon2 in TN. cbn [sum_over d_freq d_dark d_X d_read d_M d] in TN.
  change (v "WindowSize"%string 0%nat) with 1 in TN. change (v "star_signal_inAperture"%string 0%nat) with star in TN.
  match type of TN with entry_at _ _ _ (Fin (sqrt ?a / _)) => match goal with |- entry_at _ _ _ (Fin (sqrt ?b / _)) => replace b with a; [exact TN|] end end. unfold Rdiv. ring.
Qed.
Theorem C126_fainter_no_less_noise_refuted : exists q out out' a b, 0 < q < 1 /\
  M_Noise.noise_in_channel (one_row (101 / 10)) noisy_reader None = Ok out /\ M_Noise.noise_in_channel (one_row (q * (101 / 10))) noisy_reader None = Ok out' /\
  entry_at out "total_noise" 0 (Fin a) /\ entry_at out' "total_noise" 0 (Fin b) /\ b < a.
Proof.
  destruct (one_row_noise (101 / 10) ltac:(lra)) as (out & E & N). destruct (one_row_noise 10 ltac:(lra)) as (out' & E' & N').
  exists (100 / 101), out, out'. do 2 eexists. split; [lra|]. split; [exact E|]. split; [replace (100 / 101 * (101 / 10)) with 10 by field; exact E'|]. split; [exact N|]. split; [exact N'|].
  assert (R4 : reads (50 / (101 / 10)) 1 = 4). { unfold reads. replace (Rfloor (50 / (101 / 10) * 1)) with 4%Z; [reflexivity|]. symmetry. apply Rfloor_unique. lra. }
  assert (R5 : reads (50 / 10) 1 = 5). { unfold reads. replace (Rfloor (50 / 10 * 1)) with 5%Z; [reflexivity|]. symmetry. apply Rfloor_unique. lra. }
  rewrite R4, R5. unfold shot_gain, read_gain.
  assert (SQ : forall x y z, 0 < y -> 0 < z -> 0 <= x -> x < y * z ^ 2 -> sqrt x / z < sqrt y).
  { intros x y z Y Z X L. apply (Rmult_lt_reg_r z); [auto|]. replace (sqrt x / z * z) with (sqrt x) by (field; lra). rewrite <- (sqrt_pow2 z) at 1 by lra. rewrite <- sqrt_mult_alt by lra. apply sqrt_lt_1_alt. lra. }
  assert (SQ2 : forall y z, 0 < z -> 0 <= y -> sqrt y / z = sqrt (y / z ^ 2)). { intros y z Z Y. rewrite sqrt_div_alt by nra. rewrite sqrt_pow2 by lra. reflexivity. }
  rewrite (SQ2 _ (101 / 10)) by lra. apply SQ; lra.
Qed.
Print Assumptions C126_fainter_no_less_noise_refuted.

(** The camera sees Vega at twice the distance: its frame time is one to four times as long. *)
Example C126_ex fuel D : t_D (x_stellar vega) = Some D -> exists chs y y' T T' m tf tf', build_channels sharp fuel camera = Some (Ok chs) /\ snd (observe_target run3 chs vega) = Ok y /\ snd (observe_target run3 chs (at_distance vega (2 * D))) = Ok y' /\
  x_table y = Some T /\ x_table y' = Some T' /\ shows (cols T) "phot" "frameTime" (reals (map (fun _ => tf) m)) /\ shows (cols T') "phot" "frameTime" (reals (map (fun _ => tf') (m : list R))) /\ tf <= tf' <= 4 * tf.
Proof.
  intros HD. destruct (C126_distance _ _ _ _ _ _ _ _ [] [] D 2 (camera_sees fuel) HD ltac:(lra) (Forall_nil _) (Forall_nil _)) as (chs & y & y' & B & O & O' & T & T' & XT & XT' & X).
  destruct (channel_of sharp fuel camera [("phot"%string, auto_phot)] chs "phot" auto_phot eq_refl B (or_introl eq_refl)) as (c & IC).
  destruct (X "phot"%string c IC) as (_ & _ & ((m & m' & tf & tf' & _ & _ & _ & F1 & F2 & P & L & _) & _)). exists chs, y, y', T, T', m, tf, tf'. repeat (split; [assumption|]).
  rewrite Rmax_left, Rmin_right in L by lra. lra.
Qed.
