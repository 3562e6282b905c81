(** Detectors of lower quantum efficiency (C121). *)
From Coq Require Import Reals Lra Psatz Lia.
From Verif Require Import Base Dict PyStr XR M_Signal M_Optics M_Light M_Bins M_Psf M_Omega M_Star M_Source M_Foreground S_Signal S_Optics S_Light S_Bins S_Star S_Success S_Foreground L_Signal L_Optics L_Light L_Bins P_Optics P_Bins P_Windows P_Light P_Success P_Omega P_Star P_Source P_Foreground.
From Verif Require M_Noise P_Noise L_Foreground S_Source P_Star.
From Verif Require Import S_Noise L_Noise.
From Verif Require Import M_Table L_Table P_Table M_Observe S_Observe L_Observe L_Stages L_Outcome S_Works S_Complete P_Observe P_Outcome P_Works P_Complete P_Instance M_Build S_Build S_Ready L_Build L_Ready P_Build P_Ready P_Mission P_Telescope S_Full P_Full S_Bright L_Bright P_Bright P_BrightMission L_Compare S_Area P_Area S_Glow L_Glow P_Glow S_Worse P_Worse S_Filter L_Filter P_Filter S_Faded L_Faded.
Open Scope list_scope.

(** ** What a channel reports of its own *)
Definition counted (fs : sdict foreground) (m : string) : Prop := dimmed fs m \/ instrument_column m.
Lemma counted_dec fs m : {counted fs m} + {~ counted fs m}.
Proof.
  unfold counted, instrument_column. destruct (dimmed_dec fs m) as [D|D]; [left; now left|]. destruct (string_dec m "instrument_signal") as [->|N1]; [left; right; now left|]. destruct (string_dec m "instrument_MaxSignal_inPixel") as [->|N2]; [left; right; now right|]. right. intros [X|[X|X]]; auto.
Qed.
Lemma ends_suffix f suf : ends_with suf (f ++ suf)%string = true.
Proof. destruct (ends_with suf (f ++ suf)%string) eqn:E; auto. destruct (suffix_not f suf _ E eq_refl). Qed.
Lemma own_faded ns fs sed sky k name c c' o : 0 <= k -> paler k c c' -> as_built ns (name, c) -> own (Some fs) sed sky (name, c) = Ok o -> exists o', own (Some fs) sed sky (name, c') = Ok o' /\ names o' = names o /\
  (forall m, counted fs m -> exists v, sget m o = Some (reals v) /\ sget m o' = Some (reals (scaled k v))) /\
  (exists t, sget "QE" o = Some (fractions_shown t) /\ sget "QE" o' = Some (fractions_shown (map (option_map (fun v => v * k)) t))) /\
  (forall m, ~ counted fs m -> m <> "QE"%string -> sget m o' = sget m o).
Proof.
  intros K BI AB E. pose proof BI as (B1 & B2 & B3 & B4 & B5 & B6 & B7 & B8 & B9). unfold own in *. cbn [snd] in *. unfold foreground_of in *. assert (EE : M_Observe.edges c' = M_Observe.edges c) by (unfold M_Observe.edges; rewrite B1; reflexivity). rewrite B3, EE, diffuse_faded by auto.
  destruct (propagate_diffuse_foreground (h_light c) (M_Observe.edges c) (Some fs)) as [d|] eqn:D; cbn [bind] in *; [|discriminate]. unfold own_star in *. rewrite (star_faded k c c' None sed sky BI), star_area by auto.
  destruct (propagate_star c None sed sky) as [[so t]|]; cbn [bind] in *; [|discriminate]. eexists. split; [reflexivity|]. injection E as <-. unfold base. cbn [snd].
  assert (NK : names (keep (loud sky) (star_columns (gathered k so))) = names (keep (loud sky) (star_columns so))) by (rewrite !names_keep; now rewrite area_names).
  assert (MK : forall m, smem m (keep (loud sky) (star_columns (gathered k so))) = smem m (keep (loud sky) (star_columns so))) by (intros m; apply Bool.eq_iff_eq_true; rewrite !smem_names, NK; tauto).
  assert (MF : forall m, smem m (foreground_table (dim k d)) = smem m (foreground_table d)) by (intros m; apply Bool.eq_iff_eq_true; rewrite !smem_names, dim_names; tauto).
  assert (ND : forall m, ~ (exists n, In n (map fst fs) /\ glow_column n m) -> sget m d = None). { intros m N. destruct (sget m d) as [v|] eqn:G; auto. exfalso. apply N. eapply glow_only; eauto. }
  assert (NS : forall m, ends_with "_signal" m = true \/ ends_with "_MaxSignal_inPixel" m = true -> ~ photon_column m -> sget m (star_columns so) = None).
  { intros m G J. unfold star_columns. assert (X : forall w, ends_with "_signal" w = false -> ends_with "_MaxSignal_inPixel" w = false -> String.eqb m w = false). { intros w W1 W2. apply String.eqb_neq. intros ->. destruct G; congruence. }
    assert (Y : String.eqb m "star_MaxSignal_inPixel" = false) by (apply String.eqb_neq; intros ->; apply J; cbn; auto). destruct (o_sky so); cbn [app dget]; rewrite ?X, ?Y by reflexivity; reflexivity. }
  split; [|split; [|split]].
  - rewrite !override_names, NK, B6, dim_names. f_equal. rewrite !filter_app. f_equal; [|apply filter_ext; intros m; now rewrite MK]. rewrite (filter_ext (fun m => negb (smem m (foreground_table (dim k d)))) (fun m => negb (smem m (foreground_table d)))) by (intros m; now rewrite MF). apply filter_ext. intros m. now rewrite MK.
  - intros m DM. rewrite !override_get, !keep_get, !sget_table, dim_get.
    destruct (in_dec string_dec m ["starSignal"; "star_signal_inAperture"; "star_MaxSignal_inPixel"]%string) as [J|J].
    + assert (L : loud sky m = true). { cbn [In] in J. unfold loud. repeat (destruct J as [<-|J]; [destruct sky; reflexivity|]). destruct J. }
      rewrite L. cbn [In] in J. repeat (destruct J as [<-|J]; [unfold star_columns; cbn [gathered o_sky o_flux o_signal o_aperture o_max]; destruct (o_sky so); cbn; eexists; split; reflexivity|]). destruct J.
    + rewrite (star_gathered k so m J). destruct DM as [[X|(n & I & G)]|IC]; [exfalso; exact (J X)| |].
      * destruct (glow_reported _ _ _ _ _ D I m G) as [v V]. rewrite V. cbn [option_map]. rewrite NS; [|destruct G as [->| ->]; [left|right]; apply ends_suffix|exact J]. exists v. destruct (loud sky m); split; reflexivity.
      * rewrite NS; [|destruct IC as [->| ->]; [left|right]; reflexivity|exact J]. destruct (B8 m IC) as (v & V1 & V2). rewrite V1, V2. destruct (sget m d) as [u|]; cbn [option_map]; [exists u|exists v]; destruct (loud sky m); split; try reflexivity; unfold reals; reflexivity.
  - destruct B7 as (tc & T1 & T2). exists tc. assert (NT : sget "QE" d = None). { apply ND. intros (n & _ & [G|G]); symmetry in G; revert G; now apply suffix_not. }
    rewrite !override_get, !keep_get, !sget_table, dim_get, NT, T1, T2. cbn [option_map]. rewrite star_gathered by (cbn; intuition discriminate). assert (N : sget "QE" (star_columns so) = None) by (unfold star_columns; destruct (o_sky so); reflexivity). rewrite N. destruct (loud sky "QE"); split; reflexivity.
  - intros m N NT. assert (~ instrument_column m) by (intros X; apply N; now right). assert (~ dimmed fs m) by (intros X; apply N; now left). rewrite !override_get, !keep_get, !sget_table, dim_get, (ND m), (B9 m NT) by (auto; intros X; apply H0; now right). rewrite star_gathered by (intros X; apply H0; now left). reflexivity.
Qed.
(** Every peak a channel of its own reports is a peak of some light. *)
Lemma peaks_counted fs sed sky name c o : as_built channel_columns (name, c) -> own (Some fs) sed sky (name, c) = Ok o -> forall m, In m (names o) -> contains "Max" m = true -> counted fs m.
Proof.
  intros AB E m I CM. destruct (own_get _ _ _ _ _ _ AB E) as (d & so & t & HD & HS & G). apply sget_names in I as [v I]. rewrite G in I. destruct (loud sky m && smem m (star_columns so)) eqn:X.
  - apply sget_In in I. apply (in_map fst) in I. cbn [fst] in I. unfold star_columns in I. assert (In m ["foreground_transmission"; "starFlux"; "starSignal"; "star_signal_inAperture"; "star_MaxSignal_inPixel"; "sky TR"]%string). { destruct (o_sky so); cbn in I |- *; tauto. }
    left. left. cbn in H |- *. repeat (destruct H as [<-|H]; [try discriminate CM; tauto|]). destruct H.
  - destruct (sget m d) as [u|] eqn:GD. { left. right. eapply glow_only; eauto. }
    apply sget_In in I. apply (in_map fst) in I. destruct AB as (_ & NB & _). cbn [fst snd] in I. unfold names in NB. rewrite NB in I. right. unfold channel_columns in I. cbn [In] in I. repeat (destruct I as [<-|I]; [try discriminate CM|]); [now right|destruct I].
Qed.

(** ** The mission with other detectors *)
Lemma wavelengths_faded k name t t' y : name <> "wavelength"%string -> name <> "Wavelength"%string -> sget name t' = Some (map (fun a => a * k) y) -> (forall m, m <> name -> sget m t' = sget m t) -> forall x, wavelengths_of t' x <-> wavelengths_of t x.
Proof. intros N1 N2 G O x. unfold wavelengths_of. rewrite !O by auto. tauto. Qed.
Lemma qe_sensible k name d q wl : 0 <= k <= 1 -> less_efficient k name (d_qe d) q -> sensible_qe name d wl -> sensible_qe name (with_qe d q) wl.
Proof.
  intros K LE. unfold sensible_qe. cbn [with_qe d_qe]. destruct (d_qe d) as [t|v]; cbn [less_efficient] in LE; [|subst; intros; split; nra].
  destruct LE as (t' & y & -> & N1 & N2 & G & G' & O). intros (x & y0 & W & Y & NE & (C1 & C2) & F & OV). rewrite G in Y. injection Y as <-. exists x, (map (fun a => a * k) y). split; [apply (wavelengths_faded k name t t' y N1 N2 G' O); exact W|]. split; [exact G'|]. split; [exact NE|]. split.
  - split; [exact C1|]. unfold one_value_per_wavelength in *. cbn [s_data s_wl] in *. now rewrite map_length.
  - split; [|exact OV]. intros a I. apply in_map_iff in I as (b & <- & I). specialize (F b I). split; nra.
Qed.
Lemma common_faded k w p p' name d q : 0 <= k <= 1 -> p_optics p' = p_optics p -> less_efficient k name (d_qe d) q -> complete_common w p name d -> complete_common w p' name (with_qe d q).
Proof.
  intros K PO LE (H1 & H2 & H3 & H4 & H5 & H6 & H7 & H8 & H9 & H10). unfold complete_common. rewrite PO. cbn [with_qe d_from d_to M_Build.d_delta d_min d_max d_optics d_fx d_fy d_detector].
  do 8 (split; [assumption|]). split; [exact (qe_sensible k name d q _ K LE H9)|exact H10].
Qed.
Lemma mission_faded k w fuel p p' l l' s x f src : (forall n, 0 < k n <= 1) -> p_optics p' = p_optics p -> p_custom p' = p_custom p -> p_channel p' = Some (Ordered l') ->
  Forall2 (fun nd nd' => fst nd' = fst nd /\ exists q, snd nd' = with_qe (snd nd) q /\ less_efficient (k (fst nd)) (fst nd) (d_qe (snd nd)) q) l l' -> mission w fuel p l s x f src -> mission w fuel p' l' s x f src.
Proof.
  intros K PO PC CH F (H1 & H2 & (H3 & H3') & H4 & H5 & H6 & H7 & H8 & H9 & H10). assert (FN : map fst l' = map fst l) by (clear -F; induction F as [|a b l l' (E & _) F IH]; cbn; congruence).
  assert (BACK : forall name d', In (name, d') l' -> exists d q, In (name, d) l /\ d' = with_qe d q /\ less_efficient (k name) name (d_qe d) q). { intros name d' I. destruct (F2_in _ _ _ _ F I) as ([n d] & J & E & q & W1 & W2). cbn [fst snd] in *. subst. exists d, q. auto. }
  assert (KK : forall n, 0 <= k n <= 1) by (intros n; specialize (K n); lra).
  split; [exact CH|]. split; [intros ->; inversion F; subst; congruence|]. split; [split; [now rewrite FN|]|]. { intros name d' I. destruct (BACK _ _ I) as (d & q & J & -> & _). exact (H3' name d J). }
  split. { intros name d' r I. destruct (BACK _ _ I) as (d & q & J & -> & _). exact (H4 name d r J). }
  split. { intros name d' I. destruct (BACK _ _ I) as (d & q & J & -> & W). assert (SL : forall v, has_slit p' (with_qe d q) v <-> has_slit p d v) by (intros v; unfold has_slit; rewrite PO; reflexivity).
    destruct (H5 name d J) as [C|C]; [left|right].
    - destruct C as (C1 & C2 & C3 & C4). split; [eapply common_faded; eauto|]. split; [exact C2|]. split; [intros v X; exact (C3 v (proj1 (SL v) X))|exact C4].
    - destruct C as (C1 & C2 & C3 & C4 & ss & e & bins & wls & gg & D1 & D2 & D). split; [eapply common_faded; eauto|]. split; [exact C2|]. split; [exact C3|]. split; [exact C4|]. exists ss, e, bins, wls, gg. split; [exact D1|]. split; [exact D2|].
      cbv zeta in *. destruct D as (E1 & E2 & E3 & E4 & E5 & E6 & E7 & E8 & E9). do 8 (split; [assumption|]). intros v V. exact (E9 v (proj1 (SL v) V)). }
  split. { intros name d' I. destruct (BACK _ _ I) as (d & q & J & -> & _). exact (H6 name d J). }
  split. { intros name d' wl I GG. destruct (BACK _ _ I) as (d & q & J & -> & LE). destruct (H7 name d wl J GG) as (R1 & R2 & R3). split; [exact R1|]. split; [|exact R3]. cbn [with_qe d_qe]. destruct (d_qe d) as [t|v]; cbn [less_efficient] in LE; [|now subst].
    destruct LE as (t' & y & -> & N1 & N2 & G & G' & O). intros z Z. apply R2. apply (wavelengths_faded (k name) name t t' y N1 N2 G' O). exact Z. }
  split; [now rewrite PC|]. split; [|exact H10]. intros name d' I. destruct (BACK _ _ I) as (d & q & J & -> & _). exact (H9 name d J).
Qed.
Lemma one_faded k w fuel p p' name d q c : 0 <= k -> p_optics p' = p_optics p -> p_custom p' = p_custom p -> less_efficient k name (d_qe d) q -> build_one w fuel p name d = Some (Ok c) -> exists c', build_one w fuel p' name (with_qe d q) = Some (Ok c') /\ paler k c c'.
Proof.
  intros K PO PC LE BO. pose proof (built_inv _ _ _ _ _ _ BO) as (kk & z & CN & DC & BQ & O).
  assert (X : exists z', match kk with Photometer => photometer_builder w fuel name (with_qe d q) [] | Spectrometer => spectrometer_builder w fuel name (with_qe d q) [] end = Some (Ok z') /\ faded_parts k name z z') by (destruct kk; [eapply photometer_parts|eapply spectrometer_parts]; eauto).
  destruct X as (z' & BZ & FP). destruct (path_faded k w p p' d q z z' name c K PO PC FP O) as (c' & O' & PA). exists c'. split; auto.
  unfold build_one in *. cbn [with_qe d_class] in *. destruct (d_class d) as [s|]; [|congruence]. unfold build_instrument in *. rewrite CN in *. unfold build. destruct kk; rewrite BZ; cbn [andthen]; now rewrite O'.
Qed.
Lemma channels_faded k w fuel p p' l l' chs : (forall n, 0 <= k n) -> p_optics p' = p_optics p -> p_custom p' = p_custom p ->
  Forall2 (fun nd nd' => fst nd' = fst nd /\ exists q, snd nd' = with_qe (snd nd) q /\ less_efficient (k (fst nd)) (fst nd) (d_qe (snd nd)) q) l l' ->
  build_all w fuel p l = Some (Ok chs) -> exists chs', build_all w fuel p' l' = Some (Ok chs') /\ Forall2 (fun a a' => fst a' = fst a /\ paler (k (fst a)) (snd a) (snd a')) chs chs'.
Proof.
  intros K PO PC F. revert chs. induction F as [|[n d] [n' d'] l l' (E1 & q & E2 & LE) F IH]; intros chs E; cbn [build_all] in *. { injection E as <-. exists []. split; auto. }
  cbn [fst snd] in *. subst. destruct (build_one w fuel p n d) as [[c|]|] eqn:BO; cbn [andthen] in *; try discriminate. destruct (one_faded (k n) w fuel p p' n d q c (K n) PO PC LE BO) as (c' & -> & PA). destruct (build_all w fuel p l) as [[cs|]|]; cbn [andthen] in *; try discriminate. injection E as <-.
  destruct (IH cs eq_refl) as (cs' & -> & F2). cbn [andthen]. eexists. split; [reflexivity|]. constructor; auto.
Qed.

(** ** C121: detectors of lower quantum efficiency *)
(** The estimate [y'] with [k ch] times the quantum efficiency in the channel [ch] *)
Definition as_inefficient (sky : foregrounds_descr) (k : string -> R) (chs : channels) (y y' : target) : Prop :=
  exists T T', x_table y = Some T /\ x_table y' = Some T' /\
  let counted m := photon_column m \/ instrument_column m \/ exists n, in_the_sky sky n /\ glow_column n m in
  forall ch c, In (ch, c) chs ->
    (forall m, counted m \/ m = "MaxSignal_inPixel"%string -> exists v, shows (cols T) ch m (reals v) /\ shows (cols T') ch m (reals (map (fun a => a * k ch) v))) /\
    (exists t, shows (cols T) ch "QE" (fractions_shown t) /\ shows (cols T') ch "QE" (fractions_shown (map (option_map (fun a => a * k ch)) t))) /\
    (forall m v, ordinary m \/ m = "frameTime"%string -> fresh_column y m -> m <> "MaxSignal_inPixel"%string -> m <> "QE"%string -> ~ counted m -> shows (cols T') ch m v <-> shows (cols T) ch m v) /\
    exists z z', shows (cols T) ch "total_noise" (map Num z) /\ shows (cols T') ch "total_noise" (map Num z') /\ Forall2 no_better z z'.
Theorem C121_lower_quantum_efficiency : forall w fuel p p' l s x sky src h h' k, mission w fuel p l s x sky src -> payload_faded k p p' -> (forall n, 0 < k n <= 1) ->
  Forall (fun sx => no_instrument_in_the_sky (fst sx) (snd sx)) h -> Forall (fun sx => no_instrument_in_the_sky (fst sx) (snd sx)) h' ->
  exists chs chs' y y', build_channels w fuel p = Some (Ok chs) /\ build_channels w fuel p' = Some (Ok chs') /\ map fst chs' = map fst chs /\
    snd (observe_target s (after chs h) x) = Ok y /\ snd (observe_target s (after chs' h') x) = Ok y' /\ as_inefficient sky k chs y y'.
Proof.
  intros w fuel p p' l s x sky src h h' kf M (PO & PC & l0 & l' & CH & CH' & FL) K AH AH'. assert (l0 = l) as -> by (destruct M as (C & _); congruence). pose proof (mission_faded kf w fuel p p' l l' s x sky src K PO PC CH' FL M) as M'.
  destruct (mission_ready _ _ _ _ _ _ _ _ M) as (chs & st & g & fs & B & I & HN & LD & FG & GF & US). destruct (mission_ready _ _ _ _ _ _ _ _ M') as (chs' & st' & g' & fs' & B' & I' & _ & LD' & FG' & GF' & US').
  pose proof M as (_ & _ & _ & _ & _ & FF & _ & _ & _ & _ & _ & _ & _ & YF & SF & GS & GX & _ & _ & _ & _ & _ & NX).
  assert (BA := B). unfold build_channels in BA. rewrite CH in BA. destruct (channels_faded kf w fuel p p' l l' chs ltac:(intros n; specialize (K n); lra) PO PC FL BA) as (chs2 & B2 & F2). assert (chs2 = chs') as -> by (unfold build_channels in B'; rewrite CH' in B'; congruence).
  rewrite LD in LD'. injection LD' as <-. rewrite FG in FG'. injection FG' as <-. rewrite GF in GF'. injection GF' as <-.
  assert (EF := FG). unfold foregrounds_of in EF. rewrite YF in EF. pose proof (stored_are _ _ _ _ _ _ _ _ GX EF GF) as SA.
  assert (N1 : ~ In "MaxSignal_inPixel"%string channel_columns) by (cbn; intuition discriminate). assert (N2 : In "Wavelength"%string channel_columns) by (cbn; auto). assert (N3 : In "WindowSize"%string channel_columns) by (cbn; auto 10).
  destruct (observed_rows channel_columns chs h s x g fs st I channel_columns_quiet N1 N2 N3 (skies_apart chs h AH) (mission_apart _ _ _ _ _ _ _ _ chs M) FG GF LD US) as (y & T & O & XT & XS & V).
  destruct (observed_rows channel_columns chs' h' s x g fs st I' channel_columns_quiet N1 N2 N3 (skies_apart _ h' AH') (mission_apart _ _ _ _ _ _ _ _ _ M') FG GF LD US') as (y' & T' & O' & XT' & XS' & V').
  exists chs, chs', y, y'. split; [auto|]. split; [auto|]. split. { clear -F2. induction F2 as [|a a' l l' [E _] F IH]; cbn; auto. now rewrite E, IH. }
  split; [auto|]. split; [auto|]. exists T, T'. split; [auto|]. split; [auto|]. cbv zeta. intros name c IC.
  assert (DM : forall m, (photon_column m \/ instrument_column m \/ exists n, in_the_sky sky n /\ glow_column n m) <-> counted fs m). { intros m. unfold counted, dimmed. split. - intros [X|[X|(n & A1 & A2)]]; auto. left. right. exists n. split; [now apply SA|auto]. - intros [[X|(n & A1 & A2)]|X]; auto. right. right. exists n. split; [now apply SA|auto]. }
  assert (AB : as_built channel_columns (name, c)) by (destruct I as (_ & _ & _ & _ & _ & AB); rewrite Forall_forall in AB; auto).
  destruct (F2_in_l _ _ _ _ F2 IC) as ([n c'] & IC' & EN & BI). cbn [fst snd] in *. subst n. specialize (K name). set (k := kf name) in *. pose proof BI as (B1 & B2' & B3 & B4 & B5 & B6 & B7 & B8 & B9).
  destruct (US name c IC) as (_ & _ & dd & so & t0 & _ & _ & UO). pose proof UO as ((det & DE & PH) & _).
  destruct (V name c det IC DE PH) as (o & tf & total & SR). assert (DE' : describes (h_noise c') det) by (rewrite B4; exact DE). destruct (V' name c' det IC' DE' PH) as (o' & tf' & total' & SR').
  destruct (own_faded channel_columns fs (st_sed st) (g_sky g) k name c c' o ltac:(lra) BI AB (sr_own _ _ _ _ _ _ _ _ _ _ _ _ SR)) as (o2 & OW & NS & PCC & TC & OT). assert (o2 = o') as -> by (pose proof (sr_own _ _ _ _ _ _ _ _ _ _ _ _ SR'); congruence).
  assert (FX : M_Noise.fixed_frame_time (h_noise c) <> None). { destruct (HN name c IC) as (d & ID & ->). destruct (FF name d ID) as (r & -> & _). discriminate. }
  assert (TF : tf' = tf). { pose proof (sr_frame _ _ _ _ _ _ _ _ _ _ _ _ SR) as A1. pose proof (sr_frame _ _ _ _ _ _ _ _ _ _ _ _ SR') as A2. rewrite B4 in A2. destruct (M_Noise.fixed_frame_time (h_noise c)); congruence. } subst tf'.
  assert (SB : bins_of (name, c') = bins_of (name, c)) by (unfold bins_of; cbn [snd]; now rewrite B1).
  assert (SC : forall m, counted fs m -> ordinary m /\ m <> "MaxSignal_inPixel"%string /\ loud (g_sky g) m = true).
  { intros m [[J|(n & _ & J)]|J].
    - unfold photon_column in J. cbn in J. repeat (destruct J as [<-|J]; [split; [apply ordinary_end; try reflexivity; discriminate|split; [discriminate|destruct (g_sky g); reflexivity]]|]). destruct J.
    - assert (X : forall u, ends_with "_signal" u = false -> ends_with "_MaxSignal_inPixel" u = false -> m <> u) by (intros u W1 W2; destruct J as [->| ->]; now apply suffix_not).
      split; [destruct J as [->| ->]; apply ordinary_suffix; auto|split; [apply X; reflexivity|]].
      unfold loud. assert (Y1 := X "sky TR"%string eq_refl eq_refl). assert (Y2 := X "foreground_transmission"%string eq_refl eq_refl). apply String.eqb_neq in Y1. apply String.eqb_neq in Y2. rewrite Y1, Y2. now destruct (g_sky g).
    - destruct J as [->| ->]; (split; [apply ordinary_end; try reflexivity; discriminate|split; [discriminate|destruct (g_sky g); reflexivity]]). }
  assert (VAL : forall m, m <> "QE"%string -> (counted fs m /\ forall i, value_at o' m i = k * value_at o m i) \/ (~ counted fs m /\ forall i, value_at o' m i = value_at o m i)).
  { intros m NT. destruct (counted_dec fs m) as [J|J]; [left|right]; (split; [exact J|]).
    - destruct (PCC m J) as (v & G1 & G2). eapply value_star; eauto.
    - intros i. unfold value_at, col_of. now rewrite OT. }
  split; [|split; [|split]].
  - intros m [J|J].
    + apply DM in J. destruct (SC m J) as (Q1 & Q2 & Q3). destruct (PCC m J) as (v & G1 & G2). exists v. split; [now apply (sr_shows _ _ _ _ _ _ _ _ _ _ _ _ SR)|now apply (sr_shows _ _ _ _ _ _ _ _ _ _ _ _ SR')].
    + subst m. exists (map (maxima o) (List.seq 0 (bins_of (name, c)))). rewrite <- numbers_reals. split; [exact (sr_max _ _ _ _ _ _ _ _ _ _ _ _ SR)|]. pose proof (sr_max _ _ _ _ _ _ _ _ _ _ _ _ SR') as X. rewrite SB, numbers_reals in X. rewrite map_map. erewrite map_ext; [exact X|]. intros i. unfold maxima. rewrite NS.
      assert (Y : forall ms, (forall m, In m ms -> In m (names o) /\ contains "Max" m = true) -> sum_over (fun m => value_at o m i) ms * k = sum_over (fun m => value_at o' m i) ms).
      { induction ms as [|m ms IH]; intros A; cbn [sum_over]; [ring|]. rewrite <- IH by (intros; apply A; now right). destruct (A m (or_introl eq_refl)) as [A1 A2]. destruct (VAL m) as [[_ ->]|[N _]]; [intros ->; discriminate A2|ring|]. exfalso. apply N. exact (peaks_counted fs _ _ name c o AB (sr_own _ _ _ _ _ _ _ _ _ _ _ _ SR) m A1 A2). }
      apply Y. intros m J. now apply filter_In in J.
  - destruct TC as (t & T1 & T2). exists t. assert (OR : ordinary "QE") by (apply ordinary_end; try reflexivity; discriminate). assert (LR : loud (g_sky g) "QE" = true) by (destruct (g_sky g); reflexivity). split; [apply (sr_shows _ _ _ _ _ _ _ _ _ _ _ _ SR)|apply (sr_shows _ _ _ _ _ _ _ _ _ _ _ _ SR')]; auto; discriminate.
  - intros m v OM FR NT NR NP. rewrite DM in NP. apply fresh_loud in FR. rewrite XS in FR. destruct OM as [OM| ->].
    + rewrite (sr_shows _ _ _ _ _ _ _ _ _ _ _ _ SR), (sr_shows _ _ _ _ _ _ _ _ _ _ _ _ SR'), OT by auto. tauto.
    + pose proof (sr_frame_shown _ _ _ _ _ _ _ _ _ _ _ _ SR) as A1. pose proof (sr_frame_shown _ _ _ _ _ _ _ _ _ _ _ _ SR') as A2. rewrite SB in A2. split; intros X; [rewrite (shows_fun _ _ _ _ _ X A2); exact A1|rewrite (shows_fun _ _ _ _ _ X A1); exact A2].
  - assert (WI : In "WindowSize"%string (names o)) by now apply (sr_base _ _ _ _ _ _ _ _ _ _ _ _ SR).
    assert (DS : counted fs "star_signal_inAperture") by (left; left; cbn; auto).
    assert (SI : In "star_signal_inAperture"%string (names o)). { destruct (PCC _ DS) as (v & G1 & _). apply sget_names. eauto. }
    assert (EW : forall i, value_at o' "WindowSize" i = value_at o "WindowSize" i). { destruct (VAL "WindowSize"%string) as [[N _]|[_ E]]; [discriminate| |exact E]. exfalso. destruct N as [[N|(n & _ & [N|N])]|[N|N]]; [cbn in N; intuition discriminate|symmetry in N; revert N; now apply suffix_not|symmetry in N; revert N; now apply suffix_not|discriminate N|discriminate N]. }
    assert (ES : forall i, value_at o' "star_signal_inAperture" i = k * value_at o "star_signal_inAperture" i) by (destruct (VAL "star_signal_inAperture"%string) as [[_ E]|[N _]]; [discriminate|exact E|contradiction]).
    apply (noisier_rows _ _ _ _ _ _ _ _ _ _ _ _ _ _ _ _ _ _ _ _ _ _ SR SR' B4 B5 SB NS WI SI k K FX (fun i _ => EW i)).
    + intros m i J S L'. pose proof (sr_pos _ _ _ _ _ _ _ _ _ _ _ _ SR m i J (or_introl S) L'). destruct (VAL m) as [[_ E]|[_ E]]; [intros ->; discriminate S| |]; rewrite E; nra.
    + intros i _. apply ES.
Qed.
Print Assumptions C121_lower_quantum_efficiency.
(** The telescope, its spectrometer's detector down to half its quantum efficiency, looking at Vega *)
Definition weary (n : string) : R := if String.eqb n "spec" then 0.5 else 1.
Definition weary_telescope : payload :=
  {| p_optics := p_optics telescope; p_custom := p_custom telescope; p_channel := Some (Ordered [("phot"%string, with_qe phot (QeValue (0.5 * 1))); ("spec"%string, with_qe spec (QeValue (0.5 * 0.5)))]) |}.
Lemma telescope_weary : payload_faded weary telescope weary_telescope.
Proof. split; [reflexivity|]. split; [reflexivity|]. do 2 eexists. split; [reflexivity|]. split; [reflexivity|]. constructor; [|constructor; [|constructor]]; (split; [reflexivity|]); eexists; (split; [reflexivity|reflexivity]). Qed.
Example C121_ex fuel h : Forall (fun sx => sx = (run, vega)) h ->
  exists chs chs' y y' T T' v u, build_channels sharp fuel telescope = Some (Ok chs) /\ build_channels sharp fuel weary_telescope = Some (Ok chs') /\
  snd (observe_target run (after chs h) vega) = Ok y /\ snd (observe_target run (after chs' []) vega) = Ok y' /\ x_table y = Some T /\ x_table y' = Some T' /\
  shows (cols T) "spec" "star_signal_inAperture" (reals v) /\ shows (cols T') "spec" "star_signal_inAperture" (reals (map (fun a => a * 0.5) v)) /\
  shows (cols T) "spec" "instrument_signal" (reals u) /\ shows (cols T') "spec" "instrument_signal" (reals (map (fun a => a * 0.5) u)).
Proof.
  intros H. assert (K : forall n, 0 < weary n <= 1) by (intros n; unfold weary; destruct (String.eqb n "spec"); lra).
  destruct (C121_lower_quantum_efficiency sharp fuel telescope weary_telescope _ run vega _ _ h [] _ (vega_mission fuel) telescope_weary K (sky_known _ H) (Forall_nil _)) as (chs & chs' & y & y' & B & B1 & _ & O & O' & T & T' & XT & XT' & X). cbv zeta in X.
  destruct (a_telescope fuel) as (a & b & B' & _). assert (chs = [("phot"%string, a); ("spec"%string, b)]) as -> by congruence.
  destruct (X "spec"%string b) as (X1 & _); [right; now left|]. destruct (X1 "star_signal_inAperture"%string) as (v & V1 & V2); [left; left; cbn; auto|].
  destruct (X1 "instrument_signal"%string) as (u & U1 & U2); [left; right; left; now left|]. eexists _, chs', y, y', T, T', v, u. split; [exact B|]. repeat (split; [assumption|]). assumption.
Qed.
