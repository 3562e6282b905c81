(** Properties: an observation with working channels succeeds (C89). *)
From Verif Require Import Base Dict XR M_Signal M_Optics M_Light M_Bins M_Star M_Source M_Foreground S_Signal S_Optics S_Light S_Bins S_Star S_Source S_Foreground S_Success L_Signal P_Signal L_Optics L_Light L_Star L_Source L_Foreground P_Star P_Light P_Windows P_Source P_Success.
From Verif Require M_Noise P_Noise.
From Verif Require Import S_Noise L_Noise.
From Verif Require Import M_Table S_Table L_Table P_Table M_Observe S_Observe L_Observe L_Stages L_Outcome P_Observe P_Outcome S_Works.
Import M_Noise(estimate_noise, noise_in_channel, ch_name, ch_custom, fixed_frame_time).
From Coq Require Import Lia.
Open Scope list_scope.
Open Scope R_scope.

(** The foregrounds are given at the wavelengths of the source *)
Lemma lights_grid m n a b wl : working_grid n a b = Ok wl -> forall f t t', estimate_foregrounds m n a b f t = Ok t' ->
  (forall fs, g_foreground t = Some fs -> forall k l, In (k, l) fs -> s_wl (f_light l) = wl /\ one_value_per_wavelength (f_light l)) -> forall fs, g_foreground t' = Some fs -> forall k l, In (k, l) fs -> s_wl (f_light l) = wl /\ one_value_per_wavelength (f_light l).
Proof.
  intros W. assert (ONE : forall k d t t', estimate_one m n a b k d t = Ok t' -> (forall fs, g_foreground t = Some fs -> forall k l, In (k, l) fs -> s_wl (f_light l) = wl /\ one_value_per_wavelength (f_light l)) -> forall fs, g_foreground t' = Some fs -> forall k l, In (k, l) fs -> s_wl (f_light l) = wl /\ one_value_per_wavelength (f_light l)).
  { assert (SET : forall (k : string) (f : foreground) t, s_wl (f_light f) = wl /\ one_value_per_wavelength (f_light f) -> (forall fs, g_foreground t = Some fs -> forall k l, In (k, l) fs -> s_wl (f_light l) = wl /\ one_value_per_wavelength (f_light l)) -> forall fs, entry k f t = Some fs -> forall k l, In (k, l) fs -> s_wl (f_light l) = wl /\ one_value_per_wavelength (f_light l)).
    { intros k f t Hf H fs E k' l I. unfold entry in E. injection E as <-. assert (X : l = f \/ exists fs, g_foreground t = Some fs /\ In (k', l) fs).
      { destruct (g_foreground t) as [fs|]; [|destruct I as [[= <- <-]|[]]; auto]. assert (l = f \/ In (k', l) fs) as [|]; eauto. clear - I. induction fs as [|[k2 l2] fs IH]; cbn in I; [destruct I as [[= <- <-]|[]]; auto|]. destruct (String.eqb k k2); cbn in I; destruct I as [I|I]; try (injection I as <- <-; auto; fail); cbn; auto. destruct IH; auto. }
      destruct X as [-> |(fs & G & J)]; eauto. }
    intros k d t t' E H. unfold estimate_one in E. destruct (String.eqb k "zodiacal").
    - unfold estimate_zodi in E. rewrite W in E. cbn [bind] in E. destruct (match g_ra t with Some _ => _ | None => _ end) as [co|]; cbn [bind] in E; [|discriminate]. destruct (zodi_factor m _ co) as [A|]; cbn [bind] in E; [|discriminate]. injection E as <-. cbn [g_foreground]. apply SET; auto. cbn. split; auto. unfold one_value_per_wavelength. cbn. apply map_length.
    - unfold estimate_foreground in E. rewrite W in E. cbn [bind] in E. destruct (lookup (k_value _)) as [nm|]; cbn [bind] in E; [|discriminate]. destruct (sky_filter wl (as_sky d)) as [f|] eqn:SF; cbn [bind] in E; [|discriminate].
      destruct (lookup (f_transmission f)) as [tr|]; cbn [bind] in E; [|discriminate]. destruct (filter_length n a b wl _ _ W SF) as (tr' & _ & _ & F1 & F2). rewrite <- (grid_length _ _ _ _ W) in F2.
      destruct (match g_sky t with Some _ => _ | None => _ end) as [sk|]; cbn [bind] in E; [|discriminate]. injection E as <-. cbn [g_foreground]. apply SET; auto. split; auto. unfold one_value_per_wavelength. congruence. }
  intros f t t' E. destruct f as [l|d]; cbn in E.
  - revert t E. induction l as [|[k d] l IH]; intros t E H; cbn in E; [injection E as <-; auto|]. destruct (estimate_one m n a b k d t) as [t1|] eqn:E1; cbn [bind] in E; [|discriminate]. eapply IH; eauto.
  - destruct (lookup (k_value (as_sky d))) as [v|]; cbn [bind] in E; [|discriminate]. eauto.
Qed.
Lemma same_grid s x st g : in_um (y_min s) = Some 1%R -> in_um (y_max s) = Some 1%R -> (0 < value (y_min s) < value (y_max s))%R -> (2 <= y_R s)%nat ->
  y_foreground s <> None -> g_sky (x_sky x) = None -> load s x = Ok st -> foregrounds_of s (x_sky x) = Ok g ->
  source_ (st_sed st) /\ sky_on (st_sed st) (g_sky g) /\ (g_foreground (x_sky x) = None -> forall fs, g_foreground g = Some fs -> forall k l, In (k, l) fs -> s_wl (f_light l) = s_wl (st_sed st) /\ one_value_per_wavelength (f_light l)).
Proof.
  intros U1 U2 V N FS GS LD FG.
  unfold load in LD. destruct (lookup (y_source s)) as [src|]; cbn [bind] in LD; [|discriminate]. destruct (load_source (y_world s) (y_R s) (y_min s) (y_max s) (x_stellar x) src) as [st1|] eqn:LS; cbn [bind] in LD; [|discriminate].
  destruct (add_star_metadata _ _ _ _ _) as [?|]; cbn [bind] in LD; [|discriminate]. injection LD as ->.
  assert (MI : microns (y_min s) = value (y_min s)) by (unfold microns; rewrite U1; ring). assert (MA : microns (y_max s) = value (y_max s)) by (unfold microns; rewrite U2; ring).
  destruct (C76_wavelengths_of_the_source _ _ _ _ _ _ _ (or_intror U1) (or_intror U2) ltac:(lra) ltac:(lra) ltac:(lra) N LS) as (WG & L1 & L2 & _).
  split; [split; auto; unfold one_value_per_wavelength; congruence|].
  destruct (load_inv _ _ _ _ _ _ _ LS) as (lo & hi & st0 & Ew & _ & _ & Er & _).
  assert (WR : lo = y_min s /\ hi = y_max s).
  { unfold wl_range in Ew. rewrite U1, U2 in Ew. assert (Rltb (um_of (y_max s)) (um_of (y_min s)) = false) as X by (unfold um_of; rewrite U1, U2; apply Rltb_false; lra). rewrite X, U1 in Ew. split; congruence. }
  destruct WR as [-> ->]. destruct (resample_ok _ _ _ (proj1 (logspace_spec (value (y_min s)) (value (y_max s)) (y_R s) V N)) Er) as (WL & _).
  destruct (y_foreground s) as [f|] eqn:YF; [|congruence]. unfold foregrounds_of in FG. rewrite YF in FG.
  assert (WGr : working_grid (y_R s) (y_min s) (y_max s) = Ok (logspace (value (y_min s)) (value (y_max s)) (y_R s))) by (unfold working_grid, um_of; rewrite U1, U2, !Rmult_1_r; reflexivity).
  split.
  - destruct (g_sky g) as [sk|] eqn:SK; [|exact I]. destruct (sky_grid _ _ _ _ _ WGr _ _ _ FG ltac:(rewrite GS; discriminate) sk SK) as [S1 S2].
    split; [congruence|]. unfold one_value_per_wavelength. congruence.
  - intros GF fs G k l J. rewrite WL. eapply lights_grid; eauto. rewrite GF. discriminate.
Qed.

(** The light of the star goes through, and none of it is negative *)
Lemma star_goes_through c sed sky : source_ sed -> sky_on sed sky -> physical_sky sky -> nonneg (s_data sed) -> lets_star_light (h_star c) (h_kind c) (s_wl sed) ->
  exists o t, propagate_star c None sed sky = Ok (o, t) /\ nonneg (o_aperture o ++ o_max o).
Proof.
  intros SO SK PS NS (Ha & Hq & Ht & Cq & Ct & Oq & Ot & F & K). unfold propagate_star. assert (PC : physical_channel (with_sky (h_star c) None)) by (split; [exact Ha|split; [exact Hq|exact Ht]]).
  destruct (h_kind c) as [a prf|pw pd gain].
  - destruct K as (K1 & K2 & p & -> & K3 & K4). destruct (proj2 (C88_photometer_succeeds (with_sky (h_star c) None) (Some p) prf sed sky SO SK Cq Ct)) as (o & t & E); [repeat split; auto; discriminate|]. exists o, t. split; auto.
    destruct (C64_photometer_bounds _ _ _ _ _ _ _ SO SK PC PS NS E) as (s & phi & E1 & _ & [B _] & _). destruct (C64_photometer_signal _ _ _ _ _ _ _ SO SK E) as (f & qe & tr & _ & _ & _ & _ & s' & E1' & _ & pk & G & EM). assert (s' = s) as -> by congruence.
    destruct (C66_aperture_fraction (with_sky (h_star c) None) (Some p) prf sed sky) as [_ AF]. destruct (AF p o t eq_refl E) as (s' & E1'' & A1 & A2 & A3). assert (s' = s) as -> by congruence.
    intros v I. apply in_app_iff in I as [I|I].
    + destruct (a_correction p) as [f1|] eqn:X1; [rewrite (A1 f1 eq_refl) in I; destruct I as [<-|[]]; apply Rmult_le_pos; auto|]. destruct (a_ene p) as [f1|] eqn:X2; [rewrite (A2 f1 eq_refl eq_refl) in I; destruct I as [<-|[]]; apply Rmult_le_pos; auto|]. rewrite (A3 eq_refl eq_refl) in I. destruct I as [<-|[]]. auto.
    + rewrite EM in I. destruct I as [<-|[]]. apply Rmult_le_pos; auto. apply K2, G.
  - destruct K as (K1 & K2 & K3 & K4 & K5 & K6 & K7). assert (K4' : overlaps pw sed) by exact K4.
    destruct (proj2 (C88_spectrometer_succeeds (with_sky (h_star c) None) pw pd gain sed sky SO SK Cq Ct K1 K2)) as (o & t & E); [repeat split; auto|]. exists o, t. split; auto.
    destruct (C65_spectrometer_bounds _ _ _ _ _ _ _ _ SO SK PC PS NS E) as (_ & B1 & B2). destruct (C65_spectrometer_signal _ _ _ _ _ _ _ _ SO SK E) as (f & qe & tr & dens & _ & _ & _ & _ & _ & _ & _ & EA & _).
    intros v I. apply in_app_iff in I as [I|I]; [rewrite EA in I; auto|]. apply B2; auto.
Qed.
Lemma diffuse_goes_through b bins wl fs : wavelength_grid wl -> fs <> [] -> bins <> [] -> lets_diffuse_light b bins wl -> (forall k f, In (k, f) fs -> s_wl (f_light f) = wl /\ one_value_per_wavelength (f_light f) /\ nonneg (s_data (f_light f))) ->
  exists d, propagate_diffuse_foreground b bins (Some fs) = Ok d /\ forall k v, sget k d = Some v -> nonneg v.
Proof.
  intros W NF NB (Nq & Nt & Nb & Om & Ct & Cq & Ot & N1 & N2 & N3 & K) G.
  destruct (C88_foregrounds_succeed b bins wl fs W NF ltac:(intros k f I; destruct (G k f I) as (? & ? & _); auto) Ct Cq NB) as [S1 S2].
  assert (X : exists d, propagate_diffuse_foreground b bins (Some fs) = Ok d).
  { destruct (b_slit b) as [slit|] eqn:SL; [|apply S1; auto]. destruct K as (K0 & pw & pd & widths & P1 & P2 & P3 & P4 & P5 & P6 & P7). apply (S2 slit pw pd widths); auto. }
  destruct X as [d D]. exists d. split; auto. intros k v GK. apply (C30_nonnegative b bins wl fs d k v); auto; [unfold P_Light.sound; auto 10|]. intros k' f I. destruct (G k' f I) as (? & ? & ?). auto.
Qed.

(** ** C89 *)
Theorem C89_working_channels_observe : forall ns chs h s x g fs st, instruments ns chs -> quiet ns -> ~ In "MaxSignal_inPixel"%string ns -> In "Wavelength"%string ns -> In "WindowSize"%string ns ->
  Forall (fun sx => columns_apart ns chs (fst sx) (snd sx)) h -> columns_apart ns chs s x ->
  in_um (y_min s) = Some 1 -> in_um (y_max s) = Some 1 -> 0 < value (y_min s) < value (y_max s) -> (2 <= y_R s)%nat ->
  y_foreground s <> None -> g_sky (x_sky x) = None -> g_foreground (x_sky x) = None ->
  foregrounds_of s (x_sky x) = Ok g -> g_foreground g = Some fs -> fs <> [] -> physical_sky (g_sky g) -> (forall k f, In (k, f) fs -> nonneg (s_data (f_light f))) ->
  load s x = Ok st -> nonneg (s_data (st_sed st)) ->
  (forall name c, In (name, c) chs -> works_at (s_wl (st_sed st)) c /\
     match fixed_frame_time (h_noise c) with Some ft => exists r, ft = Fin r /\ 0 < r | None => forall o t, propagate_star c None (st_sed st) (g_sky g) = Ok (o, t) -> exists a, In a (o_max o) /\ 0 < a end) ->
  exists y, snd (observe_target s (after chs h) x) = Ok y.
Proof.
  intros ns chs h s x g fs st HI Q NM WL WS H AP U1 U2 V N FS GS GF FG G NF PS NL LD NS CH.
  destruct (same_grid s x st g U1 U2 V N FS GS LD FG) as (SO & SK & GR). specialize (GR GF fs G).
  apply (C87_an_observation_succeeds ns chs h s x g fs st); auto. intros name c I. destruct (CH name c I) as ((SD & DL & SL) & FT).
  destruct (star_goes_through c _ _ SO SK PS NS SL) as (o & t & EO & NO).
  destruct (diffuse_goes_through (h_light c) (M_Observe.edges c) (s_wl (st_sed st)) fs) as (d & ED & ND); auto.
  - apply SO.
  - assert (AB : as_built ns (name, c)) by (destruct HI as (_ & _ & _ & _ & _ & AB); rewrite Forall_forall in AB; auto). destruct AB as (NB & _). unfold M_Observe.edges. destruct (c_bins (h_star c)); [cbn in NB; lia|discriminate].
  - intros k f J. destruct (GR k f J). eauto.
  - exists d, o, t. split; auto. split; auto. destruct SD as [SD1 SD2]. split; auto. split; [exact SD2|]. split; [exact ND|]. split; [exact NO|]. destruct (fixed_frame_time (h_noise c)); eauto.
Qed.
Print Assumptions C89_working_channels_observe.
