(** A grey filter in front of the optics (C119). *)
From Coq Require Import Reals Lra Psatz Lia.
From Verif Require Import Base Dict PyStr XR M_Signal M_Optics M_Light M_Bins M_Psf M_Omega M_Star M_Source M_Foreground S_Signal S_Optics S_Light S_Bins S_Star S_Success S_Foreground L_Signal L_Optics L_Light L_Bins P_Optics P_Bins P_Windows P_Light P_Success P_Omega P_Star P_Source P_Foreground.
From Verif Require M_Noise P_Noise L_Foreground S_Source P_Star.
From Verif Require Import S_Noise L_Noise.
From Verif Require Import M_Table L_Table P_Table M_Observe S_Observe L_Observe L_Stages L_Outcome S_Works S_Complete P_Observe P_Outcome P_Works P_Complete P_Instance M_Build S_Build S_Ready L_Build L_Ready P_Build P_Ready P_Mission P_Telescope S_Full P_Full S_Bright L_Bright P_Bright P_BrightMission L_Compare S_Area P_Area S_Glow L_Glow P_Glow S_Filter L_Filter.
Open Scope list_scope.

(** ** What a channel reports of its own *)
Lemma dim_names k d : names (foreground_table (dim k d)) = names (foreground_table d).
Proof. unfold foreground_table, dim, names. rewrite !map_map. reflexivity. Qed.
Lemma dim_get k d m : sget m (dim k d) = option_map (scaled k) (sget m d).
Proof. unfold dim. apply (map_get (fun _ => scaled k)). Qed.
Lemma glow_only b bins fs d : propagate_diffuse_foreground b bins (Some fs) = Ok d -> forall m v, sget m d = Some v -> exists n, In n (map fst fs) /\ glow_column n m.
Proof.
  unfold propagate_diffuse_foreground. intros E m v G.
  assert (X : forall fs tr qe out d, foregrounds_light b bins tr qe fs out = Ok d -> forall v, sget m d = Some v -> (exists u, sget m out = Some u) \/ exists n, In n (map fst fs) /\ glow_column n m).
  { clear. induction fs as [|[n f] fs IH]; intros tr qe out d E v G; cbn [foregrounds_light] in E; [injection E as <-; eauto|]. dbind E xx Hx. destruct xx as [[light tr'] qe']. destruct (IH _ _ _ _ E v G) as [[u U]|(n' & I & J)]; [|right; exists n'; split; [now right|auto]].
    destruct (String.eqb_spec m (n ++ "_MaxSignal_inPixel")) as [->|N1]; [right; exists n; split; [now left|now right]|]. rewrite dget_dset_other in U by (auto; apply String_eqb_spec).
    destruct (String.eqb_spec m (n ++ "_signal")) as [->|N2]; [right; exists n; split; [now left|now left]|]. rewrite dget_dset_other in U by (auto; apply String_eqb_spec). eauto. }
  destruct (X _ _ _ _ _ E v G) as [[u U]|(n & I & J)]; [discriminate U|]. exists n. split; auto. rewrite map_rev, <- in_rev in I. exact I.
Qed.
(** The columns that show light which came through the filter *)
Definition dimmed (fs : sdict foreground) (m : string) : Prop := photon_column m \/ exists n, In n (map fst fs) /\ glow_column n m.
Lemma dimmed_dec fs m : {dimmed fs m} + {~ dimmed fs m}.
Proof.
  unfold dimmed. destruct (in_dec string_dec m ["starSignal"; "star_signal_inAperture"; "star_MaxSignal_inPixel"]%string) as [J|J]; [left; now left|].
  assert (D : {exists n, In n (map fst fs) /\ glow_column n m} + {~ exists n, In n (map fst fs) /\ glow_column n m}).
  { induction (map fst fs) as [|n l IH]; [right; now intros (? & [] & _)|]. destruct (glow_dec n m) as [G|G]; [left; exists n; split; [now left|auto]|]. destruct IH as [IH|IH]; [left; destruct IH as (n' & I & H); exists n'; split; [now right|auto]|]. right. intros (n' & [->|I] & H); eauto. }
  destruct D as [D|D]; [left; now right|right]. intros [X|X]; auto.
Qed.
Lemma star_gathered k so m : ~ photon_column m -> sget m (star_columns (gathered k so)) = sget m (star_columns so).
Proof.
  intros SK. unfold star_columns. cbn [gathered o_sky o_flux]. unfold photon_column in SK. cbn [In] in SK.
  destruct (o_sky so); cbn [app dget]; repeat match goal with |- context [String.eqb m ?a] => destruct (String.eqb_spec m a); [try reflexivity; exfalso; apply SK; subst; cbn; auto|] end; reflexivity.
Qed.
Lemma own_filter ns fs sed sky k name c c' o : 0 <= k -> behind_it k c c' -> as_built ns (name, c) -> own (Some fs) sed sky (name, c) = Ok o -> exists o', own (Some fs) sed sky (name, c') = Ok o' /\ names o' = names o /\
  (forall m, dimmed fs m -> exists v, sget m o = Some (reals v) /\ sget m o' = Some (reals (scaled k v))) /\
  (exists t, sget "TR" o = Some (fractions_shown t) /\ sget "TR" o' = Some (fractions_shown (map (option_map (fun v => v * k)) t))) /\
  (forall m, ~ dimmed fs m -> m <> "TR"%string -> sget m o' = sget m o).
Proof.
  intros K BI AB E. pose proof BI as (B1 & B2 & B3 & B4 & B5 & B6 & B7 & B8). unfold own in *. cbn [snd] in *. unfold foreground_of in *. assert (EE : M_Observe.edges c' = M_Observe.edges c) by (unfold M_Observe.edges; rewrite B1; reflexivity). rewrite B3, EE, diffuse_dim by auto.
  destruct (propagate_diffuse_foreground (h_light c) (M_Observe.edges c) (Some fs)) as [d|] eqn:D; cbn [bind] in *; [|discriminate]. unfold own_star in *. rewrite (star_behind k c c' None sed sky BI), star_area by auto.
  destruct (propagate_star c None sed sky) as [[so t]|]; cbn [bind] in *; [|discriminate]. eexists. split; [reflexivity|]. injection E as <-. unfold base. cbn [snd].
  assert (NK : names (keep (loud sky) (star_columns (gathered k so))) = names (keep (loud sky) (star_columns so))) by (rewrite !names_keep; now rewrite area_names).
  assert (MK : forall m, smem m (keep (loud sky) (star_columns (gathered k so))) = smem m (keep (loud sky) (star_columns so))) by (intros m; apply Bool.eq_iff_eq_true; rewrite !smem_names, NK; tauto).
  assert (MF : forall m, smem m (foreground_table (dim k d)) = smem m (foreground_table d)) by (intros m; apply Bool.eq_iff_eq_true; rewrite !smem_names, dim_names; tauto).
  assert (ND : forall m, ~ (exists n, In n (map fst fs) /\ glow_column n m) -> sget m d = None). { intros m N. destruct (sget m d) as [v|] eqn:G; auto. exfalso. apply N. eapply glow_only; eauto. }
  split; [|split; [|split]].
  - rewrite !override_names, NK, B6, dim_names. f_equal. rewrite !filter_app. f_equal; [|apply filter_ext; intros m; now rewrite MK]. rewrite (filter_ext (fun m => negb (smem m (foreground_table (dim k d)))) (fun m => negb (smem m (foreground_table d)))) by (intros m; now rewrite MF). apply filter_ext. intros m. now rewrite MK.
  - intros m DM. rewrite !override_get, !keep_get, !sget_table, dim_get.
    destruct (in_dec string_dec m ["starSignal"; "star_signal_inAperture"; "star_MaxSignal_inPixel"]%string) as [J|J].
    + assert (L : loud sky m = true). { cbn [In] in J. unfold loud. repeat (destruct J as [<-|J]; [destruct sky; reflexivity|]). destruct J. }
      rewrite L. cbn [In] in J. repeat (destruct J as [<-|J]; [unfold star_columns; cbn [gathered o_sky o_flux o_signal o_aperture o_max]; destruct (o_sky so); cbn; eexists; split; reflexivity|]). destruct J.
    + destruct DM as [X|(n & I & G)]; [exfalso; exact (J X)|]. destruct (glow_reported _ _ _ _ _ D I m G) as [v V]. rewrite V. cbn [option_map]. rewrite (star_gathered k so m J).
      assert (N : sget m (star_columns so) = None).
      { unfold star_columns. assert (X : forall w, ends_with "_signal" w = false -> ends_with "_MaxSignal_inPixel" w = false -> String.eqb m w = false). { intros w W1 W2. apply String.eqb_neq. destruct G as [->| ->]; now apply suffix_not. }
        assert (Y : String.eqb m "star_MaxSignal_inPixel" = false) by (apply String.eqb_neq; intros ->; apply J; cbn; auto). destruct (o_sky so); cbn [app dget]; rewrite ?X, ?Y by reflexivity; reflexivity. }
      rewrite N. exists v. destruct (loud sky m); split; reflexivity.
  - destruct B7 as (tc & T1 & T2). exists tc. assert (NT : sget "TR" d = None). { apply ND. intros (n & _ & [G|G]); symmetry in G; revert G; now apply suffix_not. }
    rewrite !override_get, !keep_get, !sget_table, dim_get, NT, T1, T2. cbn [option_map]. rewrite star_gathered by (cbn; intuition discriminate). assert (N : sget "TR" (star_columns so) = None) by (unfold star_columns; destruct (o_sky so); reflexivity). rewrite N. destruct (loud sky "TR"); split; reflexivity.
  - intros m N NT. rewrite !override_get, !keep_get, !sget_table, dim_get, (ND m), (B8 m NT) by (intros X; apply N; now right). rewrite star_gathered by (intros X; apply N; now left). reflexivity.
Qed.

(** ** The foregrounds of the sky *)
Lemma stored_are m n a b f t g fs : g_foreground t = None -> estimate_foregrounds m n a b f t = Ok g -> g_foreground g = Some fs -> forall q, In q (map fst fs) <-> in_the_sky f q.
Proof.
  intros GN E GF q.
  assert (KN : forall p t t', estimate_one m n a b (fst p) (snd p) t = Ok t' -> known_as q t' -> stored_as p q \/ known_as q t).
  { clear. intros p t t'. unfold estimate_one, stored_as, zodiacal.
    assert (X : forall k f (t t' : tgt), g_foreground t' = entry k f t -> known_as q t' -> q = k \/ known_as q t).
    { clear. intros k f t t' E (fs & F & I). rewrite E in F. unfold entry in F. injection F as <-. apply dset_In_keys in I; [|apply String_eqb_spec]. destruct I as [->|I]; auto. right. unfold known_as. destruct (g_foreground t) as [d|]; [eauto|destruct I]. }
    destruct (String.eqb (fst p) "zodiacal").
    - unfold estimate_zodi. intros E H. dbind E wl Hw. dbind E co Hc. dbind E v0 HA. injection E as <-. eapply X in H; [|reflexivity]. exact H.
    - unfold estimate_foreground. intros E H. dbind E wl Hw. destruct (k_value (as_sky (snd p))) as [v|]; cbn [lookup bind] in E; [|discriminate]. dbind E ff Hf. dbind E trr Ht. dbind E skk Hs. injection E as <-. eapply X in H; [|reflexivity]. destruct H as [->|H]; auto. }
  assert (KA : forall l t t', estimate_all m n a b l t = Ok t' -> known_as q t' -> (exists p, In p l /\ stored_as p q) \/ known_as q t).
  { induction l as [|[z d] l IH]; intros t0 t' E0 H; cbn [estimate_all] in E0. { injection E0 as <-. auto. } dbind E0 t1 EE1. destruct (IH _ _ E0 H) as [(p & I & S)|H1]; [left; exists p; split; [now right|auto]|]. destruct (KN (z, d) _ _ EE1 H1) as [S|H2]; auto. left. exists (z, d). split; [now left|auto]. }
  assert (N0 : ~ known_as q t) by (intros (x & X & _); congruence). assert (KG : known_as q g <-> In q (map fst fs)) by (unfold known_as; split; [intros (x & X & I); congruence|eauto]). rewrite <- KG. destruct f as [l|d]; cbn [estimate_foregrounds in_the_sky] in *.
  - split; [intros H; destruct (KA _ _ _ E H); auto; contradiction|intros H; eapply all_known; eauto].
  - destruct (k_value (as_sky d)) as [v|]; cbn [lookup bind] in E; [|discriminate]. split.
    + intros H. exists v. split; auto. destruct (KN (v, d) _ _ E H); auto; contradiction.
    + intros (v' & [= <-] & S). eapply (one_known q m n a b (v, d)); eauto.
Qed.

(** ** The mission behind the filter *)
Lemma grey_sensible d k : grey d k -> 0 < k <= 1 -> sensible_element d /\ forall v, ~ slit_of d v.
Proof.
  intros ((n & t & V & T & NT) & TR & RF & DA & W1 & W2 & TE & SA & EM) K. unfold says, silent in *. split; [|intros v (X & _); rewrite T in X; congruence].
  split; [|split; [|split]].
  - exists n, t. split; [auto|]. split; [auto|]. intros X. contradiction.
  - rewrite TE. discriminate.
  - intros q f [->|[->| ->]]; congruence.
  - rewrite DA. split; [auto|]. intros q f [->|[->| ->]].
    + rewrite TR. intros [= <-]. exists k. split; [reflexivity|lra].
    + rewrite RF. discriminate.
    + destruct EM as [EM|(v & EM & B)]; rewrite EM; [discriminate|]. intros [= <-]. eauto.
Qed.
Lemma element_behind key f o o' d : behind key f o o' -> element_of o' d <-> d = f \/ element_of o d.
Proof.
  destruct o as [|d0|ds]; cbn [behind]; [tauto|intros (v & _ & ->)|intros ->]; cbn [element_of In]; split.
  - intros (q & [[= _ <-]|[[= _ <-]|[]]]); auto.
  - intros [->| ->]; eauto.
  - intros (q & [[= _ <-]|I]); eauto.
  - intros [->|(q & I)]; eauto.
Qed.
Lemma slit_behind key f k p p' d v : payload_behind key f p p' -> grey f k -> 0 < k <= 1 -> has_slit p' d v <-> has_slit p d v.
Proof.
  intros (_ & _ & (o & o' & PO & PO' & _ & _ & _ & BH) & _) G K. destruct (grey_sensible f k G K) as [_ NS]. unfold has_slit. rewrite PO, PO'. cbn [option_map]. split.
  - intros (x & e & [[= ->]|X] & EL & SL); [|exists x, e; auto]. destruct (proj1 (element_behind _ _ _ _ _ BH) EL) as [->|EL']; [exfalso; eapply NS; eauto|]. exists (o_elements o), e. auto.
  - intros (x & e & [[= ->]|X] & EL & SL); [|exists x, e; auto]. exists (o_elements o'), e. split; auto. split; auto. apply (element_behind _ _ _ _ _ BH). auto.
Qed.
Lemma common_behind key f k w p p' name d : payload_behind key f p p' -> grey f k -> 0 < k <= 1 -> complete_common w p name d -> complete_common w p' name d.
Proof.
  intros (_ & _ & (o & o' & PO & PO' & OF & OA & _ & BH) & _) G K (H1 & H2 & H3 & H4 & H5 & H6 & (o0 & own & force & E1 & E2 & E3 & E4 & E5 & E6) & H8). destruct (grey_sensible f k G K) as [SE _]. do 6 (split; [assumption|]). split; [|exact H8].
  rewrite PO in E1. injection E1 as <-. exists o', own, force. split; [exact PO'|]. split; [auto|]. split; [congruence|]. split; [now rewrite OA|]. split; [|auto]. intros e EL. destruct (proj1 (element_behind _ _ _ _ _ BH) EL) as [->|EL']; auto.
Qed.
Lemma mission_behind key f k w fuel p p' l s x sky src : mission w fuel p l s x sky src -> payload_behind key f p p' -> grey f k -> 0 < k <= 1 -> mission w fuel p' l s x sky src.
Proof.
  intros (H1 & H2 & H3 & H4 & H5 & H6 & H7 & H8 & H9) PB G K. pose proof PB as (PC & PH & _). unfold mission. rewrite PC, PH. do 4 (split; [assumption|]). split; [|auto].
  intros name d I. destruct (H5 name d I) as [C|C]; [left|right].
  - destruct C as (C1 & C2 & C3 & C4). split; [eapply common_behind; eauto|]. split; [auto|]. split; [intros v X; exact (C3 v (proj1 (slit_behind key f k p p' d v PB G K) X))|exact C4].
  - destruct C as (C1 & C2 & C3 & C4 & ss & e & bins & wls & gg & D1 & D2 & D). split; [eapply common_behind; eauto|]. split; [exact C2|]. split; [exact C3|]. split; [exact C4|]. exists ss, e, bins, wls, gg. split; [exact D1|]. split; [exact D2|].
    cbv zeta in *. destruct D as (E1 & E2 & E3 & E4 & E5 & E6 & E7 & E8 & E9). do 8 (split; [assumption|]). intros v V. exact (E9 v (proj1 (slit_behind key f k p p' d v PB G K) V)).
Qed.
Lemma channels_behind key f k w fuel p p' l chs : payload_behind key f p p' -> grey f k -> p_channel p = Some (Ordered l) -> build_channels w fuel p = Some (Ok chs) ->
  exists chs', build_channels w fuel p' = Some (Ok chs') /\ Forall2 (fun a a' => fst a' = fst a /\ behind_it k (snd a) (snd a')) chs chs'.
Proof.
  intros PB G CH. pose proof PB as (PC & PH & _ & NO). unfold build_channels. rewrite PH, CH. specialize (fun n c own => NO l n c own CH). clear CH. revert chs. induction l as [|[name d] l IH]; intros chs E; cbn [build_all] in *.
  { injection E as <-. exists []. split; auto. }
  destruct (build_one w fuel p name d) as [[c|]|] eqn:BO; cbn [andthen] in *; try discriminate. destruct (build_all w fuel p l) as [[cs|]|]; cbn [andthen] in *; try discriminate. injection E as <-.
  destruct (IH (fun n c' own I => NO n c' own (or_intror I)) cs eq_refl) as (cs' & EC & F).
  assert (X : exists c', build_one w fuel p' name d = Some (Ok c') /\ behind_it k c c').
  { pose proof (built_inv _ _ _ _ _ _ BO) as (kk & q & CN & DC & BQ & O). assert (SH : shaped name q) by (destruct kk; [destruct (photometer_shaped _ _ _ _ _ BQ)|destruct (spectrometer_shaped _ _ _ _ _ BQ)]; auto).
    destruct (built_behind key f k w p p' d q c name PB G (fun own H => NO name d own (or_introl eq_refl) H) SH O) as (c' & O' & BI). exists c'. split; auto.
    unfold build_one in *. destruct (d_class d) as [s|]; [|congruence]. unfold build_instrument in *. rewrite CN in *. unfold build. destruct kk; rewrite BQ; cbn [andthen]; now rewrite O'. }
  destruct X as (c' & BO' & BI). rewrite BO'. cbn [andthen]. rewrite EC. cbn [andthen]. eexists. split; [reflexivity|]. constructor; auto.
Qed.

(** ** C119: a grey filter in front of the optics *)
(** The estimate [y'] behind a filter that passes the fraction [k] *)
Definition as_filtered (sky : foregrounds_descr) (k : R) (chs : channels) (y y' : target) : Prop :=
  exists T T', x_table y = Some T /\ x_table y' = Some T' /\
  let dimmed m := photon_column m \/ exists n, in_the_sky sky n /\ glow_column n m in
  forall ch c, In (ch, c) chs ->
    (forall m, dimmed m -> exists v, shows (cols T) ch m (reals v) /\ shows (cols T') ch m (reals (map (fun a => a * k) v))) /\
    (exists t, shows (cols T) ch "TR" (fractions_shown t) /\ shows (cols T') ch "TR" (fractions_shown (map (option_map (fun a => a * k)) t))) /\
    (forall m v, ordinary m -> fresh_column y m -> m <> "MaxSignal_inPixel"%string -> m <> "TR"%string -> ~ dimmed m -> shows (cols T') ch m v <-> shows (cols T) ch m v) /\
    exists z z', shows (cols T) ch "total_noise" (map Num z) /\ shows (cols T') ch "total_noise" (map Num z') /\ Forall2 no_better z z'.
Theorem C119_grey_filter : forall w fuel p p' l s x sky src h h' key f k, mission w fuel p l s x sky src -> payload_behind key f p p' -> grey f k -> 0 < k <= 1 ->
  Forall (fun sx => no_instrument_in_the_sky (fst sx) (snd sx)) h -> Forall (fun sx => no_instrument_in_the_sky (fst sx) (snd sx)) h' ->
  exists chs chs' y y', build_channels w fuel p = Some (Ok chs) /\ build_channels w fuel p' = Some (Ok chs') /\ map fst chs' = map fst chs /\
    snd (observe_target s (after chs h) x) = Ok y /\ snd (observe_target s (after chs' h') x) = Ok y' /\ as_filtered sky k chs y y'.
Proof.
  intros w fuel p p' l s x sky src h h' key f k M PB G K AH AH'. pose proof (mission_behind _ _ _ _ _ _ _ _ _ _ _ _ M PB G K) as M'.
  destruct (mission_ready _ _ _ _ _ _ _ _ M) as (chs & st & g & fs & B & I & HN & LD & FG & GF & US). destruct (mission_ready _ _ _ _ _ _ _ _ M') as (chs' & st' & g' & fs' & B' & I' & _ & LD' & FG' & GF' & US').
  pose proof M as (CH & _ & _ & _ & _ & FF & _ & _ & _ & _ & _ & _ & _ & YF & SF & GS & GX & _ & _ & _ & _ & _ & NX).
  destruct (channels_behind key f k w fuel p p' l chs PB G CH B) as (chs2 & B2 & F2). assert (chs2 = chs') as -> by congruence.
  rewrite LD in LD'. injection LD' as <-. rewrite FG in FG'. injection FG' as <-. rewrite GF in GF'. injection GF' as <-.
  assert (EF := FG). unfold foregrounds_of in EF. rewrite YF in EF. pose proof (stored_are _ _ _ _ _ _ _ _ GX EF GF) as SA.
  assert (N1 : ~ In "MaxSignal_inPixel"%string channel_columns) by (cbn; intuition discriminate). assert (N2 : In "Wavelength"%string channel_columns) by (cbn; auto). assert (N3 : In "WindowSize"%string channel_columns) by (cbn; auto 10).
  destruct (observed_rows channel_columns chs h s x g fs st I channel_columns_quiet N1 N2 N3 (skies_apart chs h AH) (mission_apart _ _ _ _ _ _ _ _ chs M) FG GF LD US) as (y & T & O & XT & XS & V).
  destruct (observed_rows channel_columns chs' h' s x g fs st I' channel_columns_quiet N1 N2 N3 (skies_apart _ h' AH') (mission_apart _ _ _ _ _ _ _ _ _ M') FG GF LD US') as (y' & T' & O' & XT' & XS' & V').
  exists chs, chs', y, y'. split; [auto|]. split; [auto|]. split. { clear -F2. induction F2 as [|a a' l l' [E _] F IH]; cbn; auto. now rewrite E, IH. }
  split; [auto|]. split; [auto|]. exists T, T'. split; [auto|]. split; [auto|]. cbv zeta. intros name c IC.
  assert (DM : forall m, (photon_column m \/ exists n, in_the_sky sky n /\ glow_column n m) <-> dimmed fs m). { intros m. unfold dimmed. split; (intros [X|(n & A1 & A2)]; [now left|right; exists n; split; [now apply SA|auto]]). }
  assert (AB : as_built channel_columns (name, c)) by (destruct I as (_ & _ & _ & _ & _ & AB); rewrite Forall_forall in AB; auto).
  assert (X : exists c', In (name, c') chs' /\ behind_it k c c'). { clear -F2 IC. induction F2 as [|[n a] [n' a'] l l' [E BI] F IH]; [destruct IC|]. cbn in E, BI. destruct IC as [[= <- <-]|IC]; [subst; exists a'; split; [now left|auto]|]. destruct (IH IC) as (c' & J & BI'). exists c'. split; [now right|auto]. }
  destruct X as (c' & IC' & BI). pose proof BI as (B1 & B2' & B3 & B4 & B5 & B6 & B7 & B8).
  destruct (US name c IC) as (_ & _ & dd & so & t0 & _ & _ & UO). pose proof UO as ((det & DE & PH) & _).
  destruct (V name c det IC DE PH) as (o & tf & total & SR). assert (DE' : describes (h_noise c') det) by (rewrite B4; exact DE). destruct (V' name c' det IC' DE' PH) as (o' & tf' & total' & SR').
  destruct (own_filter channel_columns fs (st_sed st) (g_sky g) k name c c' o ltac:(lra) BI AB (sr_own _ _ _ _ _ _ _ _ _ _ _ _ SR)) as (o2 & OW & NS & PC & TC & OT). assert (o2 = o') as -> by (pose proof (sr_own _ _ _ _ _ _ _ _ _ _ _ _ SR'); congruence).
  assert (SC : forall m, dimmed fs m -> ordinary m /\ m <> "MaxSignal_inPixel"%string /\ loud (g_sky g) m = true).
  { intros m [J|(n & _ & J)].
    - unfold photon_column in J. cbn in J. repeat (destruct J as [<-|J]; [split; [apply ordinary_end; try reflexivity; discriminate|split; [discriminate|destruct (g_sky g); reflexivity]]|]). destruct J.
    - assert (X : forall u, ends_with "_signal" u = false -> ends_with "_MaxSignal_inPixel" u = false -> m <> u) by (intros u W1 W2; destruct J as [->| ->]; now apply suffix_not).
      split; [destruct J as [->| ->]; apply ordinary_suffix; auto|split; [apply X; reflexivity|]].
      unfold loud. assert (Y1 := X "sky TR"%string eq_refl eq_refl). assert (Y2 := X "foreground_transmission"%string eq_refl eq_refl). apply String.eqb_neq in Y1. apply String.eqb_neq in Y2. rewrite Y1, Y2. now destruct (g_sky g). }
  split; [|split; [|split]].
  - intros m J. apply DM in J. destruct (SC m J) as (Q1 & Q2 & Q3). destruct (PC m J) as (v & G1 & G2). exists v. split; [now apply (sr_shows _ _ _ _ _ _ _ _ _ _ _ _ SR)|now apply (sr_shows _ _ _ _ _ _ _ _ _ _ _ _ SR')].
  - destruct TC as (t & T1 & T2). exists t. assert (OR : ordinary "TR") by (apply ordinary_end; try reflexivity; discriminate). assert (LR : loud (g_sky g) "TR" = true) by (destruct (g_sky g); reflexivity). split; [apply (sr_shows _ _ _ _ _ _ _ _ _ _ _ _ SR)|apply (sr_shows _ _ _ _ _ _ _ _ _ _ _ _ SR')]; auto; discriminate.
  - intros m v OM FR NT NR NP. rewrite DM in NP. apply fresh_loud in FR. rewrite XS in FR. rewrite (sr_shows _ _ _ _ _ _ _ _ _ _ _ _ SR), (sr_shows _ _ _ _ _ _ _ _ _ _ _ _ SR'), OT by auto. tauto.
  - assert (FX : M_Noise.fixed_frame_time (h_noise c) <> None). { destruct (HN name c IC) as (d & ID & ->). destruct (FF name d ID) as (r & -> & _). discriminate. }
    assert (VAL : forall m, m <> "TR"%string -> (dimmed fs m /\ forall i, value_at o' m i = k * value_at o m i) \/ (~ dimmed fs m /\ forall i, value_at o' m i = value_at o m i)).
    { intros m NT. destruct (dimmed_dec fs m) as [J|J]; [left|right]; (split; [exact J|]).
      - destruct (PC m J) as (v & G1 & G2). eapply value_star; eauto.
      - intros i. unfold value_at, col_of. now rewrite OT. }
    assert (WI : In "WindowSize"%string (names o)) by now apply (sr_base _ _ _ _ _ _ _ _ _ _ _ _ SR).
    assert (DS : dimmed fs "star_signal_inAperture") by (left; cbn; auto).
    assert (SI : In "star_signal_inAperture"%string (names o)). { destruct (PC _ DS) as (v & G1 & _). apply sget_names. eauto. }
    assert (EW : forall i, value_at o' "WindowSize" i = value_at o "WindowSize" i). { destruct (VAL "WindowSize"%string) as [[N _]|[_ E]]; [discriminate| |exact E]. exfalso. destruct N as [N|(n & _ & [N|N])]; [cbn in N; intuition discriminate|symmetry in N; revert N; now apply suffix_not|symmetry in N; revert N; now apply suffix_not]. }
    assert (ES : forall i, value_at o' "star_signal_inAperture" i = k * value_at o "star_signal_inAperture" i) by (destruct (VAL "star_signal_inAperture"%string) as [[_ E]|[N _]]; [discriminate|exact E|contradiction]).
    assert (SB : bins_of (name, c') = bins_of (name, c)) by (unfold bins_of; cbn [snd]; now rewrite B1).
    apply (noisier_rows _ _ _ _ _ _ _ _ _ _ _ _ _ _ _ _ _ _ _ _ _ _ SR SR' B4 B5 SB NS WI SI k K FX (fun i _ => EW i)).
    + intros m i J S L'. pose proof (sr_pos _ _ _ _ _ _ _ _ _ _ _ _ SR m i J (or_introl S) L'). destruct (VAL m) as [[_ E]|[_ E]]; [intros ->; discriminate S| |]; rewrite E; nra.
    + intros i _. apply ES.
Qed.
Print Assumptions C119_grey_filter.
(** The telescope behind a filter that passes a tenth of the light, looking at Vega *)
Definition smoked_glass : descr := [("value", M_Optics.Txt "filter"); ("type", M_Optics.Txt "filter"); ("transmission", M_Optics.Num 0.1)]%string.
Definition sunglasses : payload :=
  {| p_optics := Some {| o_elements := M_Optics.Several [("filter"%string, smoked_glass); ("M1"%string, mirror)]; o_force := Some true; o_area := 3 |}; p_custom := None; p_channel := p_channel telescope |}.
Lemma with_sunglasses : payload_behind "filter" smoked_glass telescope sunglasses /\ grey smoked_glass 0.1.
Proof.
  split.
  - split; [reflexivity|]. split; [reflexivity|]. split.
    + do 2 eexists. split; [reflexivity|]. split; [reflexivity|]. split; [reflexivity|]. split; [reflexivity|]. split; [cbn; discriminate|]. exists "M1"%string. split; reflexivity.
    + intros l n c own [= <-] [[= <- <-]|[[= <- <-]|[]]] [= <-]; cbn; intuition discriminate.
  - split; [exists "filter"%string, "filter"%string; repeat (split; [reflexivity|]); discriminate|]. repeat (split; [reflexivity|]). left. reflexivity.
Qed.
Example C119_ex fuel h : Forall (fun sx => sx = (run, vega)) h ->
  exists chs chs' y y' T T' v u, build_channels sharp fuel telescope = Some (Ok chs) /\ build_channels sharp fuel sunglasses = Some (Ok chs') /\
  snd (observe_target run (after chs h) vega) = Ok y /\ snd (observe_target run (after chs' []) vega) = Ok y' /\ x_table y = Some T /\ x_table y' = Some T' /\
  shows (cols T) "spec" "star_signal_inAperture" (reals v) /\ shows (cols T') "spec" "star_signal_inAperture" (reals (map (fun a => a * 0.1) v)) /\
  shows (cols T) "spec" "haze_signal" (reals u) /\ shows (cols T') "spec" "haze_signal" (reals (map (fun a => a * 0.1) u)).
Proof.
  intros H. destruct with_sunglasses as [PB G].
  destruct (C119_grey_filter sharp fuel telescope sunglasses _ run vega _ _ h [] _ _ _ (vega_mission fuel) PB G ltac:(lra) (sky_known _ H) (Forall_nil _)) as (chs & chs' & y & y' & B & B1 & _ & O & O' & T & T' & XT & XT' & X). cbv zeta in X.
  destruct (a_telescope fuel) as (a & b & B' & _). assert (chs = [("phot"%string, a); ("spec"%string, b)]) as -> by congruence.
  destruct (X "spec"%string b) as (X1 & _); [right; now left|]. destruct (X1 "star_signal_inAperture"%string) as (v & V1 & V2); [left; cbn; auto|].
  destruct (X1 "haze_signal"%string) as (u & U1 & U2). { right. exists "haze"%string. split; [exists ("fog"%string, haze 1 0.5); split; [right; now left|reflexivity]|now left]. }
  eexists _, chs', y, y', T, T', v, u. split; [exact B|]. repeat (split; [assumption|]). assumption.
Qed.
