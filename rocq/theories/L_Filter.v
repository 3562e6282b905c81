(** A grey filter in front of the optics: building and propagation. *)
From Coq Require Import Reals Lra Psatz Lia.
From Verif Require Import Base Dict PyStr XR M_Signal M_Optics M_Light M_Bins M_Psf M_Omega M_Star M_Source M_Foreground S_Signal S_Optics S_Light S_Bins S_Star S_Success S_Foreground L_Signal L_Optics L_Light L_Bins P_Optics P_Bins P_Windows P_Light P_Success P_Omega P_Star P_Source P_Foreground.
From Verif Require M_Noise P_Noise L_Foreground S_Source P_Star.
From Verif Require Import S_Noise L_Noise.
From Verif Require Import M_Table L_Table P_Table M_Observe S_Observe L_Observe L_Stages L_Outcome S_Works S_Complete P_Observe P_Outcome P_Works P_Complete P_Instance M_Build S_Build S_Ready L_Build L_Ready P_Build P_Ready P_Mission P_Telescope S_Full P_Full S_Bright L_Bright P_Bright P_BrightMission L_Compare S_Area P_Area S_Glow L_Glow P_Glow S_Filter.
Open Scope list_scope.
Open Scope R_scope.

(** ** The optical path *)
Definition dark_element (e : element) (wl : list R) (k : R) : Prop := e_tr e = ones wl k /\ e_temp e = None.
Lemma grey_element d k wl : grey d k -> exists e, build_element d wl = Ok e /\ dark_element e wl k.
Proof.
  intros ((n & t & V & T & _) & TR & RF & DA & W1 & W2 & TE & SA & EM). unfold says, silent in *. unfold build_element, text. rewrite V, T. cbn [bind].
  unfold get_transmission, M_Optics.given, dmem. rewrite DA, TR, RF, W1, W2. cbn [andb orb]. unfold number. rewrite TR. cbn [bind].
  assert (E : exists em, get_emissivity d t wl = Ok em). { unfold get_emissivity, M_Optics.given, dmem. rewrite DA. destruct EM as [EM|(v & EM & _)]; rewrite EM; [destruct (String.eqb t "detector box"); eauto|]. unfold number. rewrite EM. cbn [bind]. eauto. }
  destruct E as [em E]. rewrite E. cbn [bind]. unfold optional, M_Optics.given, dmem. rewrite TE, SA. cbn [bind]. eexists. split; [reflexivity|]. split; reflexivity.
Qed.
Lemma set_behind {A} (n m : string) (v w : A) d : n <> m -> sset n v ((m, w) :: d) = (m, w) :: sset n v d.
Proof. intros N. cbn. destruct (String.eqb_spec n m); [congruence|reflexivity]. Qed.
Lemma update_behind {A} m (w : A) l : forall d, ~ In m (map fst l) -> dupdate String.eqb ((m, w) :: d) l = (m, w) :: dupdate String.eqb d l.
Proof.
  unfold dupdate. induction l as [|[n v] l IH]; intros d N; cbn [fold_left fst snd map In] in *; auto. rewrite set_behind by tauto. apply IH. tauto.
Qed.
Lemma build_behind m w wl ds : forall out, ~ In m (map fst ds) -> build_elements ds wl ((m, w) :: out) = match build_elements ds wl out with Ok x => Ok ((m, w) :: x) | Err e => Err e end.
Proof. induction ds as [|[n d] ds IH]; intros out N; cbn [build_elements map fst In] in *; auto. destruct (build_element d wl); cbn [bind]; auto. rewrite set_behind by tauto. apply IH. tauto. Qed.
Lemma built_keys wl ds : forall out els, build_elements ds wl out = Ok els -> forall m, In m (map fst els) -> In m (map fst ds) \/ In m (map fst out).
Proof.
  induction ds as [|[n d] ds IH]; intros out els E m I; cbn [build_elements] in E; [injection E as <-; auto|]. dbind E e0 He. destruct (IH _ _ E m I) as [X|X]; [left; now right|]. apply dset_In_keys in X; [|apply String_eqb_spec]. destruct X as [->|X]; auto. left. now left.
Qed.
Lemma prepared_keys o wl els m : prepare_elements o wl = Ok els -> In m (map fst els) -> element_key o m.
Proof.
  destruct o as [|d|ds]; cbn [prepare_elements element_key]; intros E I.
  - dbind E e0 He. injection E as <-. destruct I as [<-|[]]. reflexivity.
  - dbind E e0 He. dbind E v0 Hv. injection E as <-. destruct I as [<-|[]]. unfold text in Hv. destruct (sget "value" d) as [[| |]|]; try discriminate. now injection Hv as ->.
  - destruct (built_keys _ _ _ _ E m I) as [X|[]]. exact X.
Qed.
Lemma path_behind key f k p p' d wl : payload_behind key f p p' -> grey f k -> (forall own, d_optics d = Some own -> ~ element_key own key) ->
  match optical_path wl p d with Ok els => exists e, dark_element e wl k /\ optical_path wl p' d = Ok ((key, e) :: els) | Err _ => True end.
Proof.
  intros (_ & _ & (o & o' & PO & PO' & _ & _ & NK & BH) & _) G NO. destruct (grey_element f k wl G) as (e & BE & DE). unfold optical_path. rewrite PO, PO'. cbn [lookup bind].
  destruct (prepare_elements (o_elements o) wl) as [common|] eqn:PC; cbn [bind]; auto.
  assert (PC' : prepare_elements (o_elements o') wl = Ok ((key, e) :: common)).
  { destruct (o_elements o) as [|d0|ds]; cbn [behind element_key] in *; [contradiction| |].
    - destruct BH as (v & V & ->). assert (key <> v) by (intros ->; auto). cbn [prepare_elements build_elements] in *. rewrite BE. cbn [bind]. destruct (build_element d0 wl) as [e0|]; cbn [bind] in *; [|discriminate]. unfold text in PC. rewrite V in PC. cbn [bind] in PC. injection PC as <-.
      cbn. destruct (String.eqb_spec v key); [congruence|reflexivity].
    - subst. rewrite BH. cbn [prepare_elements build_elements] in *. rewrite BE. cbn [bind]. change (sset key e []) with [(key, e)]. rewrite build_behind by auto. now rewrite PC. }
  rewrite PC'. cbn [bind]. destruct (d_optics d) as [own|] eqn:DO; cbn [lookup bind]; auto. specialize (NO own eq_refl). destruct (prepare_elements own wl) as [own'|] eqn:PW; cbn [bind]; auto. exists e. split; auto. unfold prepend, dof_list. f_equal.
  change (((key, e) :: common) ++ own') with ((key, e) :: (common ++ own')). change (dupdate String.eqb [] ((key, e) :: common ++ own')) with (dupdate String.eqb [(key, e)] (common ++ own')). apply update_behind.
  rewrite map_app, in_app_iff. intros [X|X]; [apply NK|apply NO]; eapply prepared_keys; eauto.
Qed.
Lemma totals_scale k els : forall t t' a, snd (transmission_columns els t (scaled k a)) = scaled k (snd (transmission_columns els t' a)).
Proof. induction els as [|[n e] els IH]; intros t t' a; cbn [transmission_columns]; auto. rewrite mul_scale_l. apply IH. Qed.
Lemma total_of wl els : sget "total" (transmission_table wl els) = Some (snd (transmission_columns els [("Wavelength"%string, wl)] (ones wl 1))).
Proof. unfold transmission_table. destruct (transmission_columns els _ _) as [t a]. apply dget_dset_same, String_eqb_spec. Qed.
Lemma dark_total k wl key e els : dark_element e wl k -> forall a, sget "total" (transmission_table wl els) = Some a -> sget "total" (transmission_table wl ((key, e) :: els)) = Some (scaled k a).
Proof.
  intros [ET _] a. rewrite !total_of. intros [= <-]. cbn [transmission_columns]. rewrite ET. f_equal. etransitivity; [|apply totals_scale]. f_equal. f_equal. unfold mul, ones, scaled. clear. induction wl as [|w wl IH]; cbn; auto. f_equal; [ring|exact IH].
Qed.
Lemma dark_chain wl k key e els : dark_element e wl k -> chain planck wl ((key, e) :: els) = chain planck wl els.
Proof. intros [_ ET]. unfold chain. cbn [map snd chain_from]. now rewrite ET. Qed.

(** ** Transmissions *)
Lemma interp1d_scaled k x y wl : interp1d x (scaled k y) wl = match interp1d x y wl with Ok r => Ok (scaled k r) | Err e => Err e end.
Proof.
  unfold interp1d. destruct x as [|x0 x]; auto. rewrite len_scaled. destruct (Nat.eqb _ _); auto. f_equal. unfold scaled at 2. rewrite map_map. apply map_ext. intros w. rewrite combine_scaled, sort_scaled. apply interp_scale.
Qed.
Lemma mean_scaled k l : mean (scaled k l) = option_map (fun v => v * k) (mean l).
Proof. destruct l as [|a l]; auto. unfold mean. change (scaled k (a :: l)) with (a * k :: scaled k l) at 1. cbv iota. rewrite rsum_scaled, len_scaled. cbn [option_map]. f_equal. unfold Rdiv. ring. Qed.
Lemma bin_signal_scaled k bins y : bin_signal bins (scaled k y) = map (option_map (fun v => v * k)) (bin_signal bins y).
Proof.
  unfold bin_signal. rewrite map_map. apply map_ext. intros b. rewrite combine_scaled. pose proof (filter_scaled k (fun w => negb (Rltb w (left_edge b)) && Rltb w (right_edge b)) (combine (map centre bins) y)) as E. cbn [fst] in E. rewrite E. apply mean_scaled.
Qed.
Lemma zero_scaled k p wl : forall y, zero_where p wl (scaled k y) = scaled k (zero_where p wl y).
Proof. unfold zero_where. intros y. rewrite combine_scaled. unfold scaled. rewrite !map_map. apply map_ext. intros [w v]. cbn. destruct (p w); ring. Qed.
Lemma column_scaled k bins force lo hi s : get_transmission_column bins force lo hi (lit k s) = match get_transmission_column bins force lo hi s with Ok (t, s') => Ok (map (option_map (fun v => v * k)) t, lit k s') | Err e => Err e end.
Proof.
  unfold get_transmission_column. cbn [lit s_wl s_data]. rewrite interp1d_scaled. destruct (interp1d _ _ _) as [y|]; cbn [bind]; auto. rewrite bin_signal_scaled. destruct force as [[|]|]; auto. do 2 f_equal; [|unfold lit; cbn [s_wl s_data]; now rewrite zero_scaled].
  rewrite map_map. generalize (bin_signal bins y). intros l. revert l. induction bins as [|b bs IH]; intros [|o l]; cbn; auto. f_equal; [destruct (outside _ _ _); cbn; auto; f_equal; ring|apply IH].
Qed.
Definition shaded (k : R) (c : channel) : channel :=
  {| c_bins := c_bins c; c_force := c_force c; c_min := c_min c; c_max := c_max c; c_qe := c_qe c; c_tr := lit k (c_tr c); c_area := c_area c; c_sky := c_sky c |}.
Lemma efficiency_shaded k c wl sky : get_efficiency (shaded k c) wl sky = match get_efficiency c wl sky with Ok (e, t) => Ok ((fst e, scaled k (snd e)), t) | Err x => Err x end.
Proof.
  unfold get_efficiency. cbn [shaded c_qe c_tr c_bins c_force c_min c_max c_sky]. destruct (resample wl (c_qe c)) as [q|]; cbn [bind]; auto. unfold lit. rewrite resample_scale. replace {| s_wl := s_wl (c_tr c); s_data := s_data (c_tr c) |} with (c_tr c) by (now destruct (c_tr c)).
  destruct (resample wl (c_tr c)) as [tr|]; cbn [bind s_data]; auto. destruct sky as [s|]; auto. destruct (get_transmission_column _ _ _ _ s) as [[t s']|]; cbn [bind]; auto. destruct (resample wl s') as [s2|]; cbn [bind]; auto. rewrite times_scale_l. destruct (times _ _); reflexivity.
Qed.
Lemma edges_shaded k c wl tr : force_edges (shaded k c) wl (scaled k tr) = match force_edges c wl tr with Ok (x, w) => Ok (scaled k x, w) | Err e => Err e end.
Proof. unfold force_edges. cbn [shaded c_force c_min c_max]. destruct (c_force c) as [[|]|]; auto. now rewrite zero_scaled. Qed.
(** As far as the star is concerned, a filter is a smaller telescope. *)
Lemma photometer_shaded k c a prf star sky : propagate_photometer (shaded k c) a prf star sky = propagate_photometer (wide k c) a prf star sky.
Proof.
  unfold propagate_photometer. rewrite efficiency_shaded. change (get_efficiency (wide k c)) with (get_efficiency c). change (force_edges (wide k c)) with (force_edges c). cbn [wide shaded c_area].
  destruct (get_efficiency c (s_wl star) sky) as [[e t]|]; cbn [bind]; auto. cbn [fst snd]. rewrite edges_shaded. destruct (force_edges c (s_wl star) (snd e)) as [[tr w]|]; cbn [bind]; auto.
  destruct (times w (s_data star)) as [f|]; cbn [bind]; auto. destruct (times (fst e) (s_data star)) as [x|]; cbn [bind]; auto. rewrite times_scale_r. destruct (times x tr) as [x2|]; cbn [bind]; auto. rewrite times_scale_l. destruct (times x2 _) as [x3|]; cbn [bind]; auto. rewrite trapz_scale.
  replace (c_area c * (trapz (s_wl star) x3 * k)) with (k * c_area c * trapz (s_wl star) x3) by ring. reflexivity.
Qed.
Lemma spectrometer_shaded k c pw pd gain star sky : propagate_spectrometer (shaded k c) pw pd gain star sky = propagate_spectrometer (wide k c) pw pd gain star sky.
Proof.
  unfold propagate_spectrometer. rewrite efficiency_shaded. change (get_efficiency (wide k c)) with (get_efficiency c). change (force_edges (wide k c)) with (force_edges c). cbn [wide shaded c_area c_bins].
  destruct (get_efficiency c (s_wl star) sky) as [[e t]|]; cbn [bind]; auto. cbn [fst snd]. rewrite edges_shaded. destruct (force_edges c (s_wl star) (snd e)) as [[tr w]|]; cbn [bind]; auto.
  replace (scaled (c_area c) (scaled k tr)) with (scaled (k * c_area c) tr); [reflexivity|]. unfold scaled. rewrite map_map. apply map_ext. intros. ring.
Qed.

(** ** A channel behind a filter *)
Definition light_shaded (k : R) (b : built) : built :=
  {| b_slit := b_slit b; b_pix_wl := b_pix_wl b; b_pix_width := b_pix_width b; b_spatial := b_spatial b; b_size := b_size b; b_qe := b_qe b; b_tr := lit k (b_tr b); b_delta := b_delta b; b_omega := b_omega b |}.
Definition behind_it (k : R) (c c' : chan) : Prop :=
  h_star c' = shaded k (h_star c) /\ h_kind c' = h_kind c /\ h_light c' = light_shaded k (h_light c) /\ h_noise c' = h_noise c /\ h_common c' = h_common c /\
  names (cols (h_table c')) = names (cols (h_table c)) /\
  (exists t, sget "TR" (cols (h_table c)) = Some (map cell_of t) /\ sget "TR" (cols (h_table c')) = Some (map cell_of (map (option_map (fun v => v * k)) t))) /\
  forall m, m <> "TR"%string -> sget m (cols (h_table c')) = sget m (cols (h_table c)).
Lemma star_behind k c c' col sed sky : behind_it k c c' -> propagate_star c' col sed sky = propagate_star (widen k c) col sed sky.
Proof.
  intros (S & HK & _). unfold propagate_star. cbn [widen h_star h_kind]. rewrite S, HK. change (with_sky (shaded k (h_star c)) col) with (shaded k (with_sky (h_star c) col)). change (with_sky (wide k (h_star c)) col) with (wide k (with_sky (h_star c) col)).
  destruct (h_kind c); [apply photometer_shaded|apply spectrometer_shaded].
Qed.
Lemma element_shaded k b bins wl qe r : element_light (light_shaded k b) bins wl qe r = element_light b bins wl qe r.
Proof. reflexivity. Qed.
Lemma signal_shaded k b bins wl rads : compute_signal (light_shaded k b) bins wl rads = compute_signal b bins wl rads.
Proof.
  unfold compute_signal. cbn [light_shaded b_qe]. generalize (b_qe b) {| by_element := []; total_max := map (fun _ => 0) bins; total_signal := map (fun _ => 0) bins |}. induction rads as [|[n r] rads IH]; intros qe out; cbn [sum_light]; auto. rewrite element_shaded.
  destruct (element_light b bins wl qe r) as [[l q]|]; cbn [bind]; auto. destruct (plus _ (snd l)); cbn [bind]; auto. destruct (plus _ (fst l)); cbn [bind]; auto.
Qed.
Lemma built_behind key f k w p p' d q c name : payload_behind key f p p' -> grey f k -> (forall own, d_optics d = Some own -> ~ element_key own key) -> shaped name q -> build_optical_path w p d q = Ok c ->
  exists c', build_optical_path w p' d q = Ok c' /\ behind_it k c c'.
Proof.
  intros PB G NO SH E. pose proof PB as (PCu & _ & (o & o' & PO & PO' & OF & OA & _) & _). unfold build_optical_path in *. destruct (optical_grid w d) as [wl|]; cbn [bind] in *; [|discriminate].
  pose proof (path_behind key f k p p' d wl PB G NO) as PP. destruct (optical_path wl p d) as [els|]; cbn [bind] in E; [|discriminate]. destruct PP as (e & DE & ->). cbn [bind].
  destruct (col (transmission_table wl els) "total") as [a|] eqn:TO; cbn [bind] in E; [|discriminate]. assert (TO' : col (transmission_table wl ((key, e) :: els)) "total" = Ok (scaled k a)). { unfold col in *. destruct (sget "total" (transmission_table wl els)) as [a0|] eqn:T0; [|discriminate]. injection TO as ->. now rewrite (dark_total k wl key e els DE a T0). }
  rewrite TO'. cbn [bind]. rewrite PO, PO' in *. rewrite OF, OA. change {| s_wl := wl; s_data := scaled k a |} with (lit k {| s_wl := wl; s_data := a |}). rewrite column_scaled. destruct (get_transmission_column _ _ _ _ _) as [[tc tr]|]; cbn [bind] in *; [|discriminate].
  rewrite (dark_chain wl k key e els DE). destruct (chain planck wl els) as [[rads slit]|]; cbn [bind] in *; [|discriminate]. destruct (lookup (d_fx d)) as [fx|]; cbn [bind] in *; [|discriminate].
  set (b0 := {| b_slit := slit; b_pix_wl := _; b_pix_width := _; b_spatial := _; b_size := _; b_qe := _; b_tr := tr; b_delta := _; b_omega := _ |}) in *.
  set (b1 := {| b_slit := slit; b_pix_wl := _; b_pix_width := _; b_spatial := _; b_size := _; b_qe := _; b_tr := lit k tr; b_delta := _; b_omega := _ |}). change b1 with (light_shaded k b0). rewrite signal_shaded.
  destruct (compute_signal b0 _ wl rads) as [em|]; cbn [bind] in *; [|discriminate]. eexists. split; [reflexivity|]. injection E as <-. unfold behind_it. cbn [h_star h_kind h_light h_noise h_common h_table cols].
  split; [reflexivity|]. split; [reflexivity|]. split; [reflexivity|]. split; [reflexivity|]. split; [exact PCu|]. destruct SH as ((qe & _ & QC) & _). rewrite QC. split; [reflexivity|]. split.
  - exists tc. split; reflexivity.
  - intros m N. cbn. repeat match goal with |- context [String.eqb m ?a] => destruct (String.eqb_spec m a); [try reflexivity; congruence|] end. reflexivity.
Qed.

(** ** Diffuse light *)
Definition dim (k : R) (d : sdict (list R)) : sdict (list R) := map (fun a => (fst a, scaled k (snd a))) d.
Lemma light_shade k b bins tr qe f : 0 <= k -> foreground_light (light_shaded k b) bins (lit k tr) qe f = match foreground_light b bins tr qe f with Ok x => Ok ((scaled k (fst (fst (fst x))), scaled k (snd (fst (fst x)))), lit k (snd (fst x)), snd x) | Err e => Err e end.
Proof.
  intros K. unfold foreground_light, attenuate. unfold lit at 1. rewrite resample_scale. replace {| s_wl := s_wl tr; s_data := s_data tr |} with tr by (now destruct tr). destruct (resample _ tr) as [t|]; cbn [bind s_data]; auto. rewrite times_scale_r. destruct (times (s_data (f_light f)) (s_data t)) as [x|]; cbn [bind]; auto.
  cbn [light_shaded b_slit]. destruct (b_slit b) as [sl|].
  - pose proof (slit_scale k b bins sl qe {| s_wl := s_wl (f_light f); s_data := x |} K) as E. unfold lit in E. cbn [s_wl s_data] in E. change (convolve_with_slit (light_shaded k b)) with (convolve_with_slit b). rewrite E. clear E. destruct (convolve_with_slit b bins sl qe {| s_wl := s_wl (f_light f); s_data := x |}) as [[m sg]|]; reflexivity.
  - cbn [s_wl s_data]. destruct (resample _ qe) as [q|]; cbn [bind]; auto. change (pixel_area (light_shaded k b)) with (pixel_area b). cbn [light_shaded b_omega]. rewrite times_scale_l. destruct (times x _) as [y|]; cbn [bind]; auto. unfold integrate_light. cbn [light_shaded b_size]. rewrite trapz_scale. cbn [fst snd]. unfold scaled. rewrite !map_map. f_equal. f_equal. f_equal. f_equal; apply map_ext; intros; ring.
Qed.
Lemma lights_dim k b bins : 0 <= k -> forall fs tr qe out, foregrounds_light (light_shaded k b) bins (lit k tr) qe fs (dim k out) = match foregrounds_light b bins tr qe fs out with Ok x => Ok (dim k x) | Err e => Err e end.
Proof.
  intros K. induction fs as [|[n f] fs IH]; intros tr qe out; cbn [foregrounds_light]; auto. rewrite light_shade by auto. destruct (foreground_light b bins tr qe f) as [[[[m sg] tr'] qe']|]; cbn [bind fst snd]; auto.
  rewrite <- IH. f_equal. unfold dim. rewrite <- (map_set (fun _ => scaled k)). rewrite <- (map_set (fun _ => scaled k)). reflexivity.
Qed.
Lemma diffuse_dim k b bins fs : 0 <= k -> propagate_diffuse_foreground (light_shaded k b) bins (Some fs) = match propagate_diffuse_foreground b bins (Some fs) with Ok x => Ok (dim k x) | Err e => Err e end.
Proof. intros K. unfold propagate_diffuse_foreground. cbn [light_shaded b_tr b_qe]. apply (lights_dim k b bins K (rev fs) (b_tr b) (b_qe b) []). Qed.
