(** Properties of the stellar source: C50, C51, C52, C74, C75, C76. *)
From Verif Require Import Base PyStr L_Str XR M_Signal M_Optics M_Light M_Bins M_Psf M_Source S_Signal S_Optics S_Light S_Bins S_Source L_Signal P_Signal L_Optics L_Light L_Bins P_Windows P_Planck L_Source.
From Coq Require Import Qreals Psatz.
Open Scope list_scope.
Open Scope R_scope.

(** ** Scaling and resampling *)
Lemma mean_scale k l : mean (map (fun x => x * k) l) = match mean l with Some v => Some (v * k) | None => None end.
Proof.
  destruct l as [|a l]; auto. unfold mean. cbn [map]. rewrite <- (map_cons (fun x => x * k) a l), map_length. f_equal.
  assert (H : M_Signal.rsum (map (fun x => x * k) (a :: l)) = M_Signal.rsum (a :: l) * k). { generalize (a :: l). intros m. induction m as [|x m IH]; cbn; lra. }
  rewrite H. unfold Rdiv. ring.
Qed.
Lemma bins_scale k : forall es src, bins es (map (fun p => (fst p, snd p * k)) src) = map (fun o => match o with Some v => Some (v * k) | None => None end) (bins es src).
Proof.
  induction es as [|a es IH]; intros src; auto. destruct es as [|b es]; auto. cbn [bins map]. f_equal; [|apply IH].
  rewrite <- mean_scale, map_map. f_equal. generalize (match es with [] => true | _ :: _ => false end). intros c.
  induction src as [|p src IHs]; auto. cbn [map filter fst snd]. destruct (in_bin a b c (fst p)); cbn [map]; rewrite IHs; auto.
Qed.
Lemma locate_map {V W} (f : V -> W) w : forall l, locate w (map (fun p => (fst p, f (snd p))) l) =
  match locate w l with None => None | Some (p, q) => Some ((fst p, f (snd p)), match q with Some q => Some (fst q, f (snd q)) | None => None end) end.
Proof.
  induction l as [|p l IH]; auto. cbn [map locate fst]. destruct (Rltb w (fst p)); auto. rewrite IH. destruct (locate w l) as [[? ?]|]; auto. destruct l; auto.
Qed.
Lemma interp_scale k l w : interp (map (fun p => (fst p, snd p * k)) l) w = interp l w * k.
Proof.
  unfold interp. rewrite (locate_map (fun v => v * k)). destruct (locate w l) as [[p [q|]]|]; cbn [fst snd]; [unfold Rdiv; ring|destruct (Rltb _ _); lra|lra].
Qed.
Lemma samples_combine (phi : R -> R) (wl y : list R) : combine (map Some wl) (map phi y) = samples_of phi (combine (map Some wl) y).
Proof. unfold samples_of. revert y. induction wl as [|w wl IH]; intros [|v y]; cbn; auto. now rewrite IH. Qed.
Lemma samples_id (src : list (option R * R)) : samples_of (fun v => v) src = src.
Proof. unfold samples_of. induction src as [|[o v] src IH]; cbn; auto. now rewrite IH. Qed.
Lemma resample_scale g wl y k : resample g {| s_wl := wl; s_data := scaled k y |} =
  match resample g {| s_wl := wl; s_data := y |} with Ok s => Ok {| s_wl := s_wl s; s_data := scaled k (s_data s) |} | Err e => Err e end.
Proof.
  unfold resample. cbn [s_wl s_data]. rewrite scaled_length. destruct (Nat.eqb _ _); auto. unfold scaled at 1. rewrite samples_combine. rewrite <- (samples_id (combine (map Some wl) y)) at 2.
  unfold spectral_rebin. destruct (rebin_values um_ um_ (map Some g) (combine (map Some wl) y)) as [[e H]|(gr & win & [H|H])]; rewrite !H; auto; cbn [bind s_wl s_data]; f_equal; f_equal.
  - rewrite <- (map_map (fun p => (fst p, snd p)) (fun p => (fst p, snd p * k))) || idtac.
    replace (map (fun p : R * R => (fst p, snd p * k)) win) with (map (fun p => (fst p, snd p * k)) (map (fun p : R * R => (fst p, snd p)) win)) by (rewrite map_map; reflexivity).
    rewrite bins_scale, map_map. unfold scaled. rewrite map_map. apply map_ext. intros [v|]; lra.
  - unfold scaled. rewrite !map_map. apply map_ext. intros w. 
    replace (map (fun p : R * R => (fst p, snd p * k)) win) with (map (fun p => (fst p, snd p * k)) (map (fun p : R * R => (fst p, snd p)) win)) by (rewrite map_map; reflexivity).
    now rewrite interp_scale.
Qed.
Lemma scaled_times_k k s : times_k k s {| s_wl := s_wl s; s_data := scaled k (s_data s) |}.
Proof. split; auto. cbn [s_wl s_data]. rewrite scaled_length. split; auto. intros i. rewrite scaled_at. ring. Qed.

(** ** C50: the inverse square law *)
Lemma tabulated_scale l D r k model : 0 < k -> D <> 0 ->
  tabulated l (k * D) r model = {| st_sed := {| s_wl := s_wl (st_sed (tabulated l D r model)); s_data := scaled (/ k ^ 2) (s_data (st_sed (tabulated l D r model))) |};
    st_luminosity := st_luminosity (tabulated l D r model); st_model := model |}.
Proof.
  intros Hk HD. unfold tabulated. cbn [st_sed st_luminosity s_wl s_data]. f_equal. f_equal. unfold scaled. rewrite !map_map. apply map_ext. intros x. field. split; lra.
Qed.
Lemma planck_scale lo hi D T r k : 0 < k -> D <> 0 ->
  planck_star lo hi (k * D) T r = {| st_sed := {| s_wl := s_wl (st_sed (planck_star lo hi D T r)); s_data := scaled (/ k ^ 2) (s_data (st_sed (planck_star lo hi D T r))) |};
    st_luminosity := st_luminosity (planck_star lo hi D T r); st_model := "Planck" |}.
Proof.
  intros Hk HD. unfold planck_star. cbn [st_sed st_luminosity s_wl s_data]. set (wl := linspace lo hi 10000). clearbody wl.
  assert (E : map (fun w => PI * (r / (k * D)) ^ 2 * planck w T) wl = scaled (/ k ^ 2) (map (fun w => PI * (r / D) ^ 2 * planck w T) wl)).
  { unfold scaled. rewrite map_map. apply map_ext. intros w. field. lra. }
  rewrite E. f_equal. rewrite !trapz_spec by (rewrite ?scaled_length, map_length; auto). rewrite (trapezia_ext _ _ (fun i => at_ i (map (fun w => PI * (r / D) ^ 2 * planck w T) wl) * / k ^ 2)) by (intros; apply scaled_at).
  rewrite trapezia_scale. field. split; [unfold solar_luminosity; lra|lra].
Qed.
Definition further (k : R) (s : star) : star :=
  {| st_sed := {| s_wl := s_wl (st_sed s); s_data := scaled (/ k ^ 2) (s_data (st_sed s)) |}; st_luminosity := st_luminosity s; st_model := st_model s |}.
Lemma make_star_further w t d lo hi D k : 0 < k -> D <> 0 -> t_D t = Some D ->
  make_star w (with_D t (k * D)) d lo hi = match make_star w t d lo hi with Ok s => Ok (further k s) | Err e => Err e end.
Proof.
  intros Hk HD Ht. unfold make_star. rewrite Ht. cbn [with_D t_D t_Teff t_M t_R]. destruct (lookup (d_value d)) as [name|]; auto. cbn [bind given].
  destruct (String.eqb (py_lower name) "custom").
  - destruct (given (t_R t)) as [r|]; auto. cbn [bind]. destruct (lookup (d_custom d)) as [file|]; auto. cbn [bind]. unfold custom_star. destruct (w_table w file) as [l|]; auto. cbn [bind].
    now rewrite tabulated_scale by auto.
  - destruct (given (t_Teff t)) as [T|]; auto. cbn [bind]. destruct (given (t_M t)) as [M|]; auto. cbn [bind]. destruct (given (t_R t)) as [r|]; auto. cbn [bind]. rewrite planck_scale by auto.
    destruct (String.eqb (py_lower name) "planck"); auto. destruct (String.eqb (py_lower name) "phoenix"); auto.
    destruct (match d_models d with Some p => Ok p | None => _ end) as [dir|]; auto. cbn [bind]. destruct (negb _); auto. unfold phoenix_star.
    destruct (choose_model _ _ _ _) as [n|[]]; cbn [bind or_planck]; auto. destruct (contains _ _); auto. destruct (w_spectrum w dir n) as [l|[]]; cbn [bind or_planck]; auto. now rewrite tabulated_scale by auto.
Qed.
(** Moving the star k times as far away divides its spectrum by k^2, whatever the source, and changes
    neither its luminosity nor the model chosen. *)
Theorem C50_inverse_square : forall w n a b t s D k st, 0 < k -> D <> 0 -> t_D t = Some D ->
  load_source w n a b t s = Ok st ->
  exists st', load_source w n a b (with_D t (k * D)) s = Ok st' /\ times_k (/ k ^ 2) (st_sed st) (st_sed st')
  /\ st_luminosity st' = st_luminosity st /\ st_model st' = st_model st.
Proof.
  intros w n a b t s D k st Hk HD Ht E. unfold load_source in *. destruct (wl_range a b) as [[lo hi]|]; [|discriminate]. cbn [bind] in *.
  rewrite (make_star_further _ _ _ _ _ D k Hk HD Ht). destruct (make_star w t _ _ _) as [st0|]; [|discriminate]. cbn [bind] in *. cbn [further st_sed st_luminosity st_model].
  destruct (Req_EM_T _ _); [|discriminate]. rewrite resample_scale. destruct st0 as [[w0 y0] l0 m0]. cbn [st_sed s_wl s_data st_luminosity st_model] in *. destruct (resample _ _) as [sed|]; [|discriminate]. cbn [bind] in *.
  eexists. split; [reflexivity|]. assert (st = {| st_sed := sed; st_luminosity := l0; st_model := m0 |}) as -> by congruence. cbn. split; [apply scaled_times_k|]. auto.
Qed.
Print Assumptions C50_inverse_square.
(** The star's luminosity is the flux at the observer over the sphere around the star, on the
    wavelengths of the source. *)
Theorem C50_luminosity : forall w t d lo hi D st, D <> 0 -> t_D t = Some D -> make_star w t d lo hi = Ok st ->
  st_luminosity st * (3828 * 10 ^ 23) = radiated D (st_sed st).
Proof.
  assert (Ht : forall l D r m, D <> 0 -> st_luminosity (tabulated l D r m) * (3828 * 10 ^ 23) = radiated D (st_sed (tabulated l D r m))).
  { intros l D r m HD. unfold radiated, tabulated. cbn [st_luminosity st_sed s_wl s_data]. rewrite trapz_spec by now rewrite !map_length.
    rewrite (trapezia_ext _ (fun i => at_ i (scaled _ _)) (fun i => at_ i (map snd l) * (r / D) ^ 2)) by (intros; apply scaled_at). rewrite trapezia_scale. unfold solar_luminosity. field. auto. }
  assert (Hp : forall lo hi D T r, st_luminosity (planck_star lo hi D T r) * (3828 * 10 ^ 23) = radiated D (st_sed (planck_star lo hi D T r))).
  { intros. unfold radiated, planck_star. cbn [st_luminosity st_sed s_wl s_data]. set (wl := linspace lo hi 10000). clearbody wl. rewrite trapz_spec by now rewrite map_length. unfold solar_luminosity. field. }
  intros w t d lo hi D st HD HtD E. unfold make_star in E. rewrite HtD in E. destruct (lookup (d_value d)) as [name|]; [|discriminate]. cbn [bind given] in E.
  destruct (String.eqb (py_lower name) "custom").
  - destruct (given (t_R t)) as [r|]; [|discriminate]. cbn [bind] in E. destruct (lookup (d_custom d)) as [file|]; [|discriminate]. cbn [bind] in E. unfold custom_star in E. destruct (w_table w file) as [l|]; [|discriminate]. cbn [bind] in E.
    assert (st = tabulated l D r "Custom") as -> by congruence. auto.
  - destruct (given (t_Teff t)) as [T|]; [|discriminate]. cbn [bind] in E. destruct (given (t_M t)) as [M|]; [|discriminate]. cbn [bind] in E. destruct (given (t_R t)) as [r|]; [|discriminate]. cbn [bind] in E.
    destruct (String.eqb (py_lower name) "planck"); [assert (st = planck_star lo hi D T r) as -> by congruence; auto|].
    destruct (String.eqb (py_lower name) "phoenix"); [|assert (st = planck_star lo hi D T r) as -> by congruence; auto].
    destruct (match d_models d with Some p => Ok p | None => _ end) as [dir|]; [|discriminate]. cbn [bind] in E. destruct (negb _); [discriminate|].
    destruct (phoenix_star w dir D T (calc_logg M r) r) as [st'|e] eqn:Ep; cbn [or_planck] in E.
    + assert (st' = st) as -> by congruence. unfold phoenix_star in Ep. destruct (choose_model _ _ _ _) as [nm|]; [|discriminate]. cbn [bind] in Ep. destruct (contains _ _); [|discriminate]. destruct (w_spectrum w dir nm) as [l|]; [|discriminate]. cbn [bind] in Ep.
      assert (st = tabulated (followed l) D r nm) as -> by congruence. auto.
    + destruct e; try discriminate. assert (st = planck_star lo hi D T r) as -> by congruence. auto.
Qed.
Print Assumptions C50_luminosity.
(** A star k times as large, black body or tabulated: k^2 times the flux and the luminosity.  (With
    stellar models the gravity changes, and another model may be chosen.) *)
Lemma make_star_larger w t d lo hi r k v : 0 < k -> t_R t = Some r -> d_value d = Some v -> py_lower v <> "phoenix"%string ->
  make_star w (with_R t (k * r)) d lo hi = match make_star w t d lo hi with
    | Ok s => Ok {| st_sed := {| s_wl := s_wl (st_sed s); s_data := scaled (k ^ 2) (s_data (st_sed s)) |}; st_luminosity := k ^ 2 * st_luminosity s; st_model := st_model s |} | Err e => Err e end.
Proof.
  intros Hk Hr Hv Hp. unfold make_star. rewrite Hr, Hv. cbn [with_R t_D t_Teff t_M t_R lookup bind]. destruct (given (t_D t)) as [D|]; [|destruct (String.eqb _ _); auto]. cbn [bind given].
  apply String.eqb_neq in Hp. rewrite Hp. destruct (String.eqb (py_lower v) "custom").
  - destruct (lookup (d_custom d)) as [file|]; auto. cbn [bind]. unfold custom_star. destruct (w_table w file) as [l|]; auto. cbn [bind]. f_equal. unfold tabulated. cbn [st_sed st_luminosity s_wl s_data st_model]. f_equal.
    + f_equal. unfold scaled. rewrite !map_map. apply map_ext. intros x. unfold Rdiv. ring.
    + unfold Rdiv. ring.
  - destruct (given (t_Teff t)) as [T|]; auto. cbn [bind]. destruct (given (t_M t)) as [M|]; auto. cbn [bind].
    assert (E : planck_star lo hi D T (k * r) = {| st_sed := {| s_wl := s_wl (st_sed (planck_star lo hi D T r)); s_data := scaled (k ^ 2) (s_data (st_sed (planck_star lo hi D T r))) |};
      st_luminosity := k ^ 2 * st_luminosity (planck_star lo hi D T r); st_model := st_model (planck_star lo hi D T r) |}).
    { unfold planck_star. cbn [st_sed st_luminosity s_wl s_data st_model]. set (wl := linspace lo hi 10000). clearbody wl.
      assert (E : map (fun w => PI * (k * r / D) ^ 2 * planck w T) wl = scaled (k ^ 2) (map (fun w => PI * (r / D) ^ 2 * planck w T) wl)).
      { unfold scaled. rewrite map_map. apply map_ext. intros x. unfold Rdiv. ring. }
      rewrite E. f_equal. rewrite !trapz_spec by (rewrite ?scaled_length, map_length; auto). rewrite (trapezia_ext _ _ (fun i => at_ i (map (fun w => PI * (r / D) ^ 2 * planck w T) wl) * k ^ 2)) by (intros; apply scaled_at).
      rewrite trapezia_scale. unfold Rdiv. ring. }
    rewrite E. destruct (String.eqb _ "planck"); auto.
Qed.
Theorem C50_radius : forall w n a b t s r k v st, 0 < k -> t_R t = Some r -> d_value (description_of s) = Some v -> py_lower v <> "phoenix"%string ->
  load_source w n a b t s = Ok st ->
  exists st', load_source w n a b (with_R t (k * r)) s = Ok st' /\ times_k (k ^ 2) (st_sed st) (st_sed st')
  /\ st_luminosity st' = k ^ 2 * st_luminosity st /\ st_model st' = st_model st.
Proof.
  intros w n a b t s r k v st Hk Hr Hv Hp E. unfold load_source in *. destruct (wl_range a b) as [[lo hi]|]; [|discriminate]. cbn [bind] in *.
  rewrite (make_star_larger _ _ _ _ _ r k v Hk Hr Hv Hp). destruct (make_star w t _ _ _) as [st0|]; [|discriminate]. cbn [bind] in *. cbn [st_sed st_luminosity st_model].
  destruct (Req_EM_T _ _); [|discriminate]. rewrite resample_scale. destruct st0 as [[w0 y0] l0 m0]. cbn [st_sed s_wl s_data st_luminosity st_model] in *. destruct (resample _ _) as [sed|]; [|discriminate]. cbn [bind] in *.
  eexists. split; [reflexivity|]. assert (st = {| st_sed := sed; st_luminosity := l0; st_model := m0 |}) as -> by congruence. cbn [st_sed st_luminosity st_model]. split; [apply scaled_times_k|]. auto.
Qed.
Print Assumptions C50_radius.

(** The spectrum is not negative if the fluxes in the files are not. *)
Definition files_nonneg (w : world) : Prop :=
  (forall f l p, w_table w f = Ok l -> In p l -> 0 <= snd p) /\ (forall d f l p, w_spectrum w d f = Ok l -> In p l -> 0 <= snd p).
Lemma wl_range_spec a b lo hi : wl_range a b = Ok (lo, hi) ->
  comparable a b /\ um_of lo <= um_of hi /\ (um_of lo = microns a /\ um_of hi = microns b \/ um_of lo = microns b /\ um_of hi = microns a).
Proof.
  unfold wl_range, comparable, um_of, microns. destruct a as [va [sa|]], b as [vb [sb|]]; cbn [in_um value]; try discriminate.
  all: destruct (Rltb _ _) eqn:El; cbn [in_um value]; intros E; (assert (lo = fst (lo, hi)) as -> by reflexivity; assert (hi = snd (lo, hi)) as -> by reflexivity); injection E as <- <-; cbn [fst snd in_um value].
  all: try (apply Rltb_true in El); try (apply Rltb_false in El); split; [split; congruence|]; split; try lra; (left; lra) || (right; lra).
Qed.
Lemma followed_In l p : In p (followed l) -> In p l.
Proof.
  induction l as [|q l IH]; [intros []|]. destruct l as [|q' l]; [intros []|]. cbn [followed]. destruct (Req_EM_T _ _); [right; auto|]. intros [->|H]; [now left|right; auto].
Qed.
Lemma tabulated_nonneg l D r m : (forall p, In p l -> 0 <= snd p) -> nonneg (s_data (st_sed (tabulated l D r m))).
Proof.
  intros H x Hx. unfold tabulated, scaled in Hx. cbn [st_sed s_data] in Hx. rewrite map_map in Hx. apply in_map_iff in Hx. destruct Hx as (p & <- & Hp).
  apply Rmult_le_pos; [auto|apply pow2_ge_0].
Qed.
Lemma linspace_bounds lo hi n x : lo <= hi -> In x (linspace lo hi n) -> lo <= x.
Proof.
  intros H Hx. unfold linspace in Hx. apply in_map_iff in Hx. destruct Hx as (k & <- & _). assert (0 <= INR k * ((hi - lo) / INR (n - 1))); [|lra].
  apply Rmult_le_pos; [apply pos_INR|]. unfold Rdiv. apply Rmult_le_pos; [lra|]. destruct (Nat.eq_dec (n - 1) 0) as [->|Hn]; [cbn; rewrite Rinv_0; lra|]. left. apply Rinv_0_lt_compat, lt_0_INR. lia.
Qed.
Lemma planck_nonneg lo hi D T r : 0 < lo -> lo <= hi -> 0 < T -> nonneg (s_data (st_sed (planck_star lo hi D T r))).
Proof.
  intros H Hh HT x Hx. unfold planck_star in Hx. cbn [st_sed s_data] in Hx. apply in_map_iff in Hx. destruct Hx as (w & <- & Hw).
  apply linspace_bounds in Hw; auto. destruct (C53_positive_and_increasing w T ltac:(lra) HT) as [Hp _]. apply Rmult_le_pos; [|lra]. apply Rmult_le_pos; [pose proof PI_RGT_0; lra|apply pow2_ge_0].
Qed.
Theorem C50_nonneg : forall w n a b t s st, files_nonneg w -> 0 < microns a -> 0 < microns b -> (forall T, t_Teff t = Some T -> 0 < T) ->
  load_source w n a b t s = Ok st -> nonneg (s_data (st_sed st)).
Proof.
  intros w n a b t s st [Hf1 Hf2] Ha Hb HT E. unfold load_source in E. destruct (wl_range a b) as [[lo hi]|] eqn:Ew; [|discriminate]. cbn [bind] in E.
  apply wl_range_spec in Ew. destruct Ew as (_ & Hle & Hcase). assert (Hlo : 0 < um_of lo) by (destruct Hcase as [[-> _]|[-> _]]; auto).
  destruct (make_star w t _ _ _) as [st0|] eqn:Em; [|discriminate]. cbn [bind] in E. destruct (Req_EM_T _ _); [|discriminate]. destruct (resample _ _) as [sed|] eqn:Er; [|discriminate]. cbn [bind] in E.
  assert (st_sed st = sed) as -> by (replace st with {| st_sed := sed; st_luminosity := st_luminosity st0; st_model := st_model st0 |} by congruence; reflexivity).
  apply (resample_nonneg _ _ _ Er). clear E Er. unfold make_star in Em. destruct (lookup (d_value _)) as [name|]; [|discriminate]. cbn [bind] in Em.
  destruct (String.eqb (py_lower name) "custom").
  - destruct (given (t_D t)) as [D|]; [|discriminate]. cbn [bind] in Em. destruct (given (t_R t)) as [r|]; [|discriminate]. cbn [bind] in Em. destruct (lookup (d_custom _)) as [file|]; [|discriminate]. cbn [bind] in Em. unfold custom_star in Em. destruct (w_table w file) as [l|] eqn:El; [|discriminate]. cbn [bind] in Em.
    assert (st0 = tabulated l D r "Custom") as -> by congruence. apply tabulated_nonneg. eauto.
  - destruct (given (t_D t)) as [D|]; [|discriminate]. cbn [bind] in Em. destruct (t_Teff t) as [T|]; [|discriminate]. cbn [given bind] in Em. specialize (HT T eq_refl). destruct (given (t_M t)) as [M|]; [|discriminate]. cbn [bind] in Em. destruct (given (t_R t)) as [r|]; [|discriminate]. cbn [bind] in Em.
    destruct (String.eqb (py_lower name) "planck"); [assert (st0 = planck_star (um_of lo) (um_of hi) D T r) as -> by congruence; now apply planck_nonneg|].
    destruct (String.eqb (py_lower name) "phoenix"); [|assert (st0 = planck_star (um_of lo) (um_of hi) D T r) as -> by congruence; now apply planck_nonneg].
    destruct (match d_models _ with Some p => Ok p | None => _ end) as [dir|]; [|discriminate]. cbn [bind] in Em. destruct (negb _); [discriminate|].
    destruct (phoenix_star w dir D T (calc_logg M r) r) as [st'|ex] eqn:Ep; cbn [or_planck] in Em.
    + assert (st' = st0) as -> by congruence. unfold phoenix_star in Ep. destruct (choose_model _ _ _ _) as [nm|]; [|discriminate]. cbn [bind] in Ep. destruct (contains _ _); [|discriminate]. destruct (w_spectrum w dir nm) as [l|] eqn:El; [|discriminate]. cbn [bind] in Ep.
      assert (st0 = tabulated (followed l) D r nm) as -> by congruence. apply tabulated_nonneg. intros p Hp. apply followed_In in Hp. eauto.
    + destruct ex; try discriminate. assert (st0 = planck_star (um_of lo) (um_of hi) D T r) as -> by congruence. now apply planck_nonneg.
Qed.
Print Assumptions C50_nonneg.

(** ** C51: which source *)
Theorem C51_case_insensitive : forall w n a b t d d', option_map py_lower (d_value d) = option_map py_lower (d_value d') ->
  d_custom d = d_custom d' -> d_models d = d_models d' ->
  load_source w n a b t (SourceDict d) = load_source w n a b t (SourceDict d').
Proof.
  intros w n a b t d d' Hv Hc Hm. unfold load_source. cbn [description_of]. destruct (wl_range a b) as [[lo hi]|]; auto. cbn [bind].
  assert (make_star w t d (um_of lo) (um_of hi) = make_star w t d' (um_of lo) (um_of hi)) as ->; auto. unfold make_star. rewrite Hc, Hm.
  destruct (d_value d) as [v|], (d_value d') as [v'|]; try discriminate; auto. cbn [option_map] in Hv. assert (py_lower v = py_lower v') as E by congruence. cbn [lookup bind]. now rewrite E.
Qed.
Print Assumptions C51_case_insensitive.
Theorem C51_name_or_dictionary : forall w n a b t v, load_source w n a b t (SourceName v) = load_source w n a b t (SourceDict {| d_value := Some v; d_custom := None; d_models := None |}).
Proof. reflexivity. Qed.
Print Assumptions C51_name_or_dictionary.
(** A name other than custom and phoenix means a black body. *)
Theorem C51_unknown_is_planck : forall w n a b t d v, d_value d = Some v -> py_lower v <> "custom"%string -> py_lower v <> "phoenix"%string ->
  load_source w n a b t (SourceDict d) = load_source w n a b t (SourceName "planck").
Proof.
  intros w n a b t d v Hv Hc Hp. unfold load_source. cbn [description_of]. destruct (wl_range a b) as [[lo hi]|]; auto. cbn [bind].
  assert (make_star w t d (um_of lo) (um_of hi) = make_star w t {| d_value := Some "planck"%string; d_custom := None; d_models := None |} (um_of lo) (um_of hi)) as ->; auto.
  unfold make_star. rewrite Hv. cbn [lookup bind d_value]. apply String.eqb_neq in Hc, Hp. rewrite Hc, Hp. change (py_lower "planck") with "planck"%string. cbn [String.eqb Ascii.eqb Bool.eqb].
  destruct (String.eqb (py_lower v) "planck"); auto.
Qed.
Print Assumptions C51_unknown_is_planck.
(** With stellar models: a black body instead when the choice of the model or the reading of it fails
    with ValueError; all other failures are passed on. *)
Definition models_dir (w : world) (d : description) (dir : string) : Prop := d_models d = Some dir \/ d_models d = None /\ w_phoenix w = Some dir.
Lemma choose_In names T g z n : choose_model names T g z = Ok n -> In n names.
Proof.
  unfold choose_model. destruct names as [|x l]; [discriminate|]. set (names := x :: l). destruct (mapM temperature_in names) as [Ts|]; [|discriminate]. cbn [bind]. destruct (mapM gravity_in names) as [Gs|]; [|discriminate]. cbn [bind]. destruct (mapM metallicity_in names) as [Zs|]; [|discriminate]. cbn [bind].
  destruct Ts as [|a Ts]; [discriminate|]. destruct (_ || _); [discriminate|]. destruct (argmin _) as [i|]; [|discriminate]. cbn [bind]. destruct (nth_error names i) as [y|] eqn:E; [|discriminate]. intros H. assert (y = n) as -> by congruence. now apply nth_error_In in E.
Qed.
Lemma phoenix_model w dir D T g r st : phoenix_star w dir D T g r = Ok st -> In (st_model st) (w_models w dir).
Proof.
  unfold phoenix_star. destruct (choose_model _ _ _ _) as [n|] eqn:E; [|discriminate]. cbn [bind]. destruct (contains _ _); [|discriminate]. destruct (w_spectrum w dir n) as [l|]; [|discriminate]. cbn [bind].
  intros H. assert (st = tabulated (followed l) D r n) as -> by congruence. cbn. eapply choose_In; eauto.
Qed.
Theorem C51_what_is_used : forall w n a b t d st, load_source w n a b t (SourceDict d) = Ok st -> exists v, d_value d = Some v
  /\ (py_lower v = "custom"%string -> st_model st = "Custom"%string /\ exists file l, d_custom d = Some file /\ w_table w file = Ok l)
  /\ (py_lower v = "phoenix"%string -> exists dir, models_dir w d dir /\ w_exists w dir = true /\ (In (st_model st) (w_models w dir) \/ st_model st = "Planck"%string))
  /\ (py_lower v <> "custom"%string -> py_lower v <> "phoenix"%string -> st_model st = "Planck"%string).
Proof.
  intros w n a b t d st E. unfold load_source in E. cbn [description_of] in E. destruct (wl_range a b) as [[lo hi]|]; [|discriminate]. cbn [bind] in E.
  destruct (make_star w t _ _ _) as [st0|] eqn:Em; [|discriminate]. cbn [bind] in E. destruct (Req_EM_T _ _); [|discriminate]. destruct (resample _ _) as [sed|] eqn:Er; [|discriminate]. cbn [bind] in E.
  assert (st_model st = st_model st0) as -> by (replace st with {| st_sed := sed; st_luminosity := st_luminosity st0; st_model := st_model st0 |} by congruence; reflexivity). clear E Er.
  unfold make_star in Em. destruct (d_value d) as [v|]; [|discriminate]. cbn [bind lookup] in Em. exists v. split; auto. destruct (String.eqb_spec (py_lower v) "custom") as [Ec|Ec].
  - destruct (given (t_D t)) as [D|]; [|discriminate]. cbn [bind] in Em. destruct (given (t_R t)) as [r|]; [|discriminate]. cbn [bind] in Em. destruct (d_custom d) as [file|]; [|discriminate]. cbn [bind lookup] in Em. unfold custom_star in Em. destruct (w_table w file) as [l|] eqn:El; [|discriminate]. cbn [bind] in Em.
    assert (st0 = tabulated l D r "Custom") as -> by congruence. split; [split; eauto|]. split; congruence.
  - split; [congruence|]. destruct (given (t_D t)) as [D|]; [|discriminate]. cbn [bind] in Em. destruct (given (t_Teff t)) as [T|]; [|discriminate]. cbn [bind] in Em. destruct (given (t_M t)) as [M|]; [|discriminate]. cbn [bind] in Em. destruct (given (t_R t)) as [r|]; [|discriminate]. cbn [bind] in Em.
    destruct (String.eqb_spec (py_lower v) "planck") as [Ep|Ep]; [assert (st0 = planck_star (um_of lo) (um_of hi) D T r) as -> by congruence; split; [congruence|auto]|].
    destruct (String.eqb_spec (py_lower v) "phoenix") as [Eh|Eh]; [|assert (st0 = planck_star (um_of lo) (um_of hi) D T r) as -> by congruence; split; [congruence|auto]].
    split; [|congruence]. intros _. unfold models_dir. destruct (d_models d) as [dir|] eqn:Ed; [|destruct (w_phoenix w) as [dir|] eqn:Ew; [|discriminate]]; cbn [bind] in Em; exists dir; (split; [auto|]);
      (destruct (w_exists w dir); [|discriminate]); (split; [auto|]); cbn [negb] in Em.
    all: destruct (phoenix_star w dir D T (calc_logg M r) r) as [st'|ex] eqn:Ex; cbn [or_planck] in Em.
    all: try (destruct ex; try discriminate; assert (st0 = planck_star (um_of lo) (um_of hi) D T r) as -> by congruence; now right).
    all: assert (st' = st0) as -> by congruence; left; now apply phoenix_model in Ex.
Qed.
Print Assumptions C51_what_is_used.
(** Everything but a name is required of the target; a custom spectrum needs only distance and radius. *)
Theorem C51_incomplete_target : forall w n a b lo hi t d v, wl_range a b = Ok (lo, hi) -> d_value d = Some v ->
  (t_D t = None \/ t_R t = None -> load_source w n a b t (SourceDict d) = Err AttributeError)
  /\ (t_Teff t = None \/ t_M t = None -> py_lower v <> "custom"%string -> load_source w n a b t (SourceDict d) = Err AttributeError).
Proof.
  intros w n a b lo hi t d v Ew Hv. unfold load_source, make_star. rewrite Ew. cbn [bind description_of]. rewrite Hv. cbn [bind lookup]. split.
  - intros H. destruct (String.eqb _ "custom"); destruct (t_D t), (t_Teff t), (t_M t), (t_R t); cbn [given bind]; auto; destruct H; discriminate.
  - intros H Hc. apply String.eqb_neq in Hc. rewrite Hc. destruct (t_D t), (t_Teff t), (t_M t), (t_R t); cbn [given bind]; auto; destruct H; discriminate.
Qed.
Print Assumptions C51_incomplete_target.

(** ** C52: the nearest model *)
Lemma readings_In names v m : readings names v -> In m names -> exists p, In p v /\ named m (fst (fst p)) (snd (fst p)) (snd p).
Proof.
  intros H. induction H as [|x p names v Hx H IH]; [intros []|]. intros [->|Hm]; [exists p; split; [now left|auto]|]. destruct (IH Hm) as (q & Hq & Hn). exists q. split; [now right|auto].
Qed.
Lemma readings_In' names v p : readings names v -> In p v -> exists m, In m names /\ named m (fst (fst p)) (snd (fst p)) (snd p).
Proof.
  intros H. induction H as [|x q names v Hx H IH]; [intros []|]. intros [->|Hm]; [exists x; split; [now left|auto]|]. destruct (IH Hm) as (m & Hq & Hn). exists m. split; [now right|auto].
Qed.
Lemma readings_nth names v i m : readings names v -> nth_error names i = Some m -> exists p, nth_error v i = Some p /\ named m (fst (fst p)) (snd (fst p)) (snd p).
Proof.
  intros H. revert i. induction H as [|x q names v Hx H IH]; intros [|i] E; try discriminate; [|now apply IH]. exists q. cbn in *. split; congruence || (assert (x = m) as <- by congruence; auto).
Qed.
Theorem C52_nearest_model : forall names T g z n, choose_model names T g z = Ok n ->
  (forall m, In m names -> exists T' g' z', named m T' g' z')
  /\ exists k, rounded (T / 100) k
  /\ (exists m T' g' z', In m names /\ named m T' g' z' /\ T' <= IZR k) /\ (exists m T' g' z', In m names /\ named m T' g' z' /\ IZR k <= T')
  /\ exists before after T0 g0 z0, names = before ++ n :: after /\ named n T0 g0 z0
     /\ forall m T' g' z', In m names -> named m T' g' z' -> mismatch k g z T0 g0 z0 <= mismatch k g z T' g' z' /\ (In m before -> mismatch k g z T0 g0 z0 < mismatch k g z T' g' z').
Proof.
  intros names T g z n E. unfold choose_model in E. destruct names as [|x0 l0] eqn:Enm; [discriminate|]. rewrite <- Enm in *. clear x0 l0 Enm.
  destruct (mapM_readings names) as [(Ts & Gs & Zs & v & E1 & E2 & E3 & Hv & HT & HG & HZ)|[_ Hno]].
  2:{ destruct (mapM temperature_in names) as [Ts|]; [|discriminate]. cbn [bind] in E. destruct (mapM gravity_in names) as [Gs|]; [|discriminate]. cbn [bind] in E. destruct (mapM metallicity_in names) as [Zs|]; [|discriminate]. destruct (Hno _ _ _ eq_refl eq_refl eq_refl). }
  rewrite E1, E2, E3 in E. cbn [bind] in E. set (k := rint (T / 100)) in *. destruct Ts as [|a Ts]; [discriminate|].
  destruct (Rltb (IZR k) (rmin a Ts)) eqn:Elo; [discriminate|]. destruct (Rltb (rmax a Ts) (IZR k)) eqn:Ehi; [discriminate|]. cbn [orb] in E. apply Rltb_false in Elo, Ehi.
  pose proof (argmin_spec (distances (IZR k) g z (a :: Ts) Gs Zs)) as Ha. destruct (argmin _) as [i|]; [|discriminate]. cbn [bind] in E. destruct (nth_error names i) as [n'|] eqn:En; [|discriminate]. assert (n' = n) as -> by congruence.
  split; [intros m Hm; destruct (readings_In _ _ _ Hv Hm) as (p & _ & Hp); eauto|]. exists k. split; [apply rint_rounded|].
  assert (Hr : forall x, In x (a :: Ts) -> exists m g' z', In m names /\ named m x g' z').
  { intros x Hx. rewrite HT in Hx. apply in_map_iff in Hx. destruct Hx as (p & <- & Hp). destruct (readings_In' _ _ _ Hv Hp) as (m & Hm & Hn). eauto. }
  split; [destruct (rmin_spec Ts a) as [Hi _]; destruct (Hr _ Hi) as (m & g' & z' & ? & ?); exists m, (rmin a Ts), g', z'; auto|].
  split; [destruct (rmax_spec Ts a) as [Hi _]; destruct (Hr _ Hi) as (m & g' & z' & ? & ?); exists m, (rmax a Ts), g', z'; auto|].
  destruct Ha as [Hi Hmin]. rewrite HT, HG, HZ in Hi, Hmin. rewrite distances_length in Hi, Hmin. destruct (readings_nth _ _ _ _ Hv En) as (p & Hp & Hnp). pose proof Hp as Hp'. apply nth_error_nth with (d := p) in Hp'.
  destruct (nth_error_split _ _ En) as (before & after & Es & Hlen). exists before, after, (fst (fst p)), (snd (fst p)), (snd p). split; auto. split; auto.
  assert (Hd : forall j m T' g' z', nth_error names j = Some m -> named m T' g' z' -> (j < length v)%nat /\ at_ j (distances (IZR k) g z (map (fun p => fst (fst p)) v) (map (fun p => snd (fst p)) v) (map snd v)) = mismatch k g z T' g' z').
  { intros j m T' g' z' Hj Hm. destruct (readings_nth _ _ _ _ Hv Hj) as (q & Hq & Hnq). assert (Lj : (j < length v)%nat) by (apply nth_error_Some; congruence). split; auto. rewrite (distances_at _ _ _ _ _ Lj q).
    apply nth_error_nth with (d := q) in Hq. rewrite Hq. destruct (named_unique _ _ _ _ _ _ _ Hm Hnq) as (-> & -> & ->). reflexivity. }
  destruct (Hd i n _ _ _ En Hnp) as [Li Ei]. intros m T' g' z' Hm Hn. split.
  - apply In_nth_error in Hm. destruct Hm as [j Hj]. destruct (Hd j m _ _ _ Hj Hn) as [Lj Ej]. destruct (Hmin j Lj) as [H _]. rewrite Ei, Ej in H. auto.
  - intros Hb. apply In_nth_error in Hb. destruct Hb as [j Hj]. assert (Hjb : (j < length before)%nat) by (apply nth_error_Some; congruence).
    assert (Hj' : nth_error names j = Some m) by (rewrite Es, nth_error_app1; auto). destruct (Hd j m _ _ _ Hj' Hn) as [Lj Ej]. destruct (Hmin j Lj) as [_ H]. rewrite Ei, Ej in H. apply H. lia.
Qed.
Print Assumptions C52_nearest_model.
(** In LoadSource the surface gravity is log10 of G M / R^2 in cm/s^2, the metallicity 0, and the flux is
    that of the chosen file. *)
Theorem C52_model_of_the_star : forall w n a b t d st v dir, d_value d = Some v -> py_lower v = "phoenix"%string -> models_dir w d dir ->
  (forall M, t_M t = Some M -> 0 < M) -> (forall r, t_R t = Some r -> 0 < r) ->
  load_source w n a b t (SourceDict d) = Ok st -> st_model st <> "Planck"%string ->
  exists T M r g k, t_Teff t = Some T /\ t_M t = Some M /\ t_R t = Some r /\ Rpower 10 g = 100 * (66743 / 10 ^ 15 * M / (r * r)) /\ rounded (T / 100) k
  /\ (exists l, w_spectrum w dir (st_model st) = Ok l)
  /\ exists before after T0 g0 z0, w_models w dir = before ++ st_model st :: after /\ named (st_model st) T0 g0 z0
     /\ forall m T' g' z', In m (w_models w dir) -> named m T' g' z' -> mismatch k g 0 T0 g0 z0 <= mismatch k g 0 T' g' z' /\ (In m before -> mismatch k g 0 T0 g0 z0 < mismatch k g 0 T' g' z').
Proof.
  intros w n a b t d st v dir Hv Hp Hd HM Hr E Hmod. unfold load_source in E. cbn [description_of] in E. destruct (wl_range a b) as [[lo hi]|]; [|discriminate]. cbn [bind] in E.
  destruct (make_star w t _ _ _) as [st0|] eqn:Em; [|discriminate]. cbn [bind] in E. destruct (Req_EM_T _ _); [|discriminate]. destruct (resample _ _) as [sed|] eqn:Er; [|discriminate]. cbn [bind] in E.
  assert (Emod : st_model st = st_model st0) by (replace st with {| st_sed := sed; st_luminosity := st_luminosity st0; st_model := st_model st0 |} by congruence; reflexivity). rewrite Emod in *. clear E Er Emod.
  unfold make_star in Em. rewrite Hv in Em. cbn [bind lookup] in Em. rewrite Hp in Em. cbn [String.eqb Ascii.eqb Bool.eqb] in Em.
  destruct (t_D t) as [D|]; [|discriminate]. cbn [given bind] in Em. destruct (t_Teff t) as [T|]; [|discriminate]. cbn [given bind] in Em. destruct (t_M t) as [M|]; [|discriminate]. cbn [given bind] in Em. destruct (t_R t) as [r|]; [|discriminate]. cbn [given bind] in Em.
  specialize (HM M eq_refl). specialize (Hr r eq_refl).
  assert (match d_models d with Some p => Ok p | None => match w_phoenix w with Some p => Ok p | None => Err OSError end end = Ok dir) as Edir by (destruct Hd as [-> |[-> ->]]; reflexivity).
  rewrite Edir in Em. cbn [bind] in Em. destruct (negb _); [discriminate|].
  destruct (phoenix_star w dir D T (calc_logg M r) r) as [st'|ex] eqn:Ex; cbn [or_planck] in Em; [|destruct ex; try discriminate; exfalso; apply Hmod; assert (st0 = planck_star (um_of lo) (um_of hi) D T r) as -> by congruence; reflexivity].
  assert (st' = st0) as -> by congruence. unfold phoenix_star in Ex. destruct (choose_model (w_models w dir) T (calc_logg M r) 0) as [m|] eqn:Ec; [|discriminate]. cbn [bind] in Ex. destruct (contains _ _); [|discriminate].
  destruct (w_spectrum w dir m) as [l|] eqn:El; [|discriminate]. cbn [bind] in Ex. assert (st_model st0 = m) as -> by (assert (st0 = tabulated (followed l) D r m) as -> by congruence; reflexivity).
  destruct (C52_nearest_model _ _ _ _ _ Ec) as (_ & k & Hk & _ & _ & Hnear). exists T, M, r, (calc_logg M r), k. repeat (split; [auto; fail|]). split; [|split; [auto|split; [eauto|exact Hnear]]].
  unfold calc_logg, Rpower. replace (ln (6.6743 / 10 ^ 11 * M / r ^ 2 * 100) / ln 10 * ln 10) with (ln (6.6743 / 10 ^ 11 * M / r ^ 2 * 100)) by (field; apply Rgt_not_eq; rewrite <- ln_1; apply ln_increasing; lra).
  rewrite exp_ln; [replace 6.6743 with (66743 / 10000) by lra; field; lra|]. assert (0 < r ^ 2) by (apply pow_lt; auto). assert (0 < 10 ^ 11) by (apply pow_lt; lra). assert (0 < / r ^ 2) by now apply Rinv_0_lt_compat. assert (0 < 6.6743 / 10 ^ 11) by lra. unfold Rdiv in *.
  apply Rmult_lt_0_compat; [|lra]. apply Rmult_lt_0_compat; auto. apply Rmult_lt_0_compat; auto.
Qed.
Print Assumptions C52_model_of_the_star.
(** A model is found unless there are none (OSError), or the temperature in whole hundreds is outside
    their range (ValueError). *)
Theorem C52_a_model_is_found : forall names T g z k, rounded (T / 100) k -> (forall m, In m names -> exists T' g' z', named m T' g' z') ->
  (names = [] -> choose_model names T g z = Err OSError)
  /\ ((exists m T' g' z', In m names /\ named m T' g' z' /\ T' <= IZR k) -> (exists m T' g' z', In m names /\ named m T' g' z' /\ IZR k <= T') -> exists n, choose_model names T g z = Ok n)
  /\ (names <> [] -> (forall m T' g' z', In m names -> named m T' g' z' -> IZR k < T') \/ (forall m T' g' z', In m names -> named m T' g' z' -> T' < IZR k) -> choose_model names T g z = Err ValueError).
Proof.
  intros names T g z k Hk Hall. assert (Ek : rint (T / 100) = k) by (eapply rounded_unique; [apply rint_rounded|auto]).
  split; [intros ->; reflexivity|].
  destruct (mapM_readings names) as [(Ts & Gs & Zs & v & E1 & E2 & E3 & Hv & HT & HG & HZ)|[(m & Hm & Hno) _]]; [|exfalso; destruct (Hall m Hm) as (T' & g' & z' & H); exact (Hno _ _ _ H)].
  assert (HT' : forall m T' g' z', In m names -> named m T' g' z' -> In T' Ts). { intros m T' g' z' Hm Hn. destruct (readings_In _ _ _ Hv Hm) as (p & Hp & Hn'). destruct (named_unique _ _ _ _ _ _ _ Hn Hn') as (-> & _). rewrite HT. apply in_map_iff. eauto. }
  assert (Hlen : length v = length names) by (symmetry; eapply Forall2_len; eauto).
  unfold choose_model. rewrite E1, E2, E3, Ek. cbn [bind]. split.
  - intros (m & T1 & g1 & z1 & M1 & N1 & L1) (m' & T2 & g2 & z2 & M2 & N2 & L2). destruct names as [|x l]; [destruct M1|]. destruct Ts as [|a Ts]; [destruct (HT' _ _ _ _ M1 N1)|].
    destruct (rmin_spec Ts a) as [_ Hmin], (rmax_spec Ts a) as [_ Hmax]. specialize (Hmin _ (HT' _ _ _ _ M1 N1)). specialize (Hmax _ (HT' _ _ _ _ M2 N2)).
    assert (Rltb (IZR k) (rmin a Ts) = false) as -> by (apply Rltb_false; lra). assert (Rltb (rmax a Ts) (IZR k) = false) as -> by (apply Rltb_false; lra). cbn [orb].
    pose proof (argmin_spec (distances (IZR k) g z (a :: Ts) Gs Zs)) as Ha. rewrite HT, HG, HZ in *. destruct (argmin _) as [i|]; cbn [bind].
    + destruct Ha as [Hi _]. rewrite distances_length, Hlen in Hi. destruct (nth_error (x :: l) i) as [y|] eqn:Ey; [eauto|]. apply nth_error_None in Ey. lia.
    + destruct Ha as [Ha _]. apply (f_equal (@length R)) in Ha. rewrite distances_length, Hlen in Ha. discriminate.
  - intros Hne Hout. destruct names as [|x l]; [congruence|]. destruct Ts as [|a Ts]; [reflexivity|].
    assert (Hr : forall y, In y (a :: Ts) -> exists m g' z', In m (x :: l) /\ named m y g' z').
    { intros y Hy. rewrite HT in Hy. apply in_map_iff in Hy. destruct Hy as (p & <- & Hp). destruct (readings_In' _ _ _ Hv Hp) as (m & Hm & Hn). eauto. }
    destruct Hout as [Hout|Hout].
    + destruct (rmin_spec Ts a) as [Hi _]. destruct (Hr _ Hi) as (m & g' & z' & Hm & Hn). specialize (Hout _ _ _ _ Hm Hn). assert (Rltb (IZR k) (rmin a Ts) = true) as -> by now apply Rltb_true. reflexivity.
    + destruct (rmax_spec Ts a) as [Hi _]. destruct (Hr _ Hi) as (m & g' & z' & Hm & Hn). specialize (Hout _ _ _ _ Hm Hn). assert (Rltb (rmax a Ts) (IZR k) = true) as -> by now apply Rltb_true. rewrite orb_true_r. reflexivity.
Qed.
Print Assumptions C52_a_model_is_found.

(** ** C75: failures while choosing a model *)
Lemma fallback w n a b t d v dir : d_value d = Some v -> py_lower v = "phoenix"%string -> models_dir w d dir -> w_exists w dir = true ->
  (forall T M r, t_Teff t = Some T -> t_M t = Some M -> t_R t = Some r -> choose_model (w_models w dir) T (calc_logg M r) 0 = Err ValueError) ->
  load_source w n a b t (SourceDict d) = load_source w n a b t (SourceName "planck").
Proof.
  intros Hv Hp Hd Hx Hc. unfold load_source. cbn [description_of]. destruct (wl_range a b) as [[lo hi]|]; auto. cbn [bind].
  assert (make_star w t d (um_of lo) (um_of hi) = make_star w t {| d_value := Some "planck"%string; d_custom := None; d_models := None |} (um_of lo) (um_of hi)) as ->; auto.
  unfold make_star. rewrite Hv. cbn [lookup bind d_value]. rewrite Hp. change (py_lower "planck") with "planck"%string. cbn [String.eqb Ascii.eqb Bool.eqb].
  destruct (given (t_D t)) as [D|]; auto. cbn [bind]. destruct (t_Teff t) as [T|]; auto. cbn [given bind]. destruct (t_M t) as [M|]; auto. cbn [given bind]. destruct (t_R t) as [r|]; auto. cbn [given bind].
  assert ((match d_models d with Some p => Ok p | None => match w_phoenix w with Some p => Ok p | None => Err OSError end end) = Ok dir) as -> by (destruct Hd as [->|[-> ->]]; auto). cbn [bind]. rewrite Hx. cbn [negb].
  unfold phoenix_star. rewrite (Hc T M r) by auto. reflexivity.
Qed.
(** A star hotter or colder than all models is a black body, without an error. *)
Theorem C75_temperature_out_of_range : forall w n a b t d v dir T k, d_value d = Some v -> py_lower v = "phoenix"%string -> models_dir w d dir -> w_exists w dir = true ->
  w_models w dir <> [] -> (forall m, In m (w_models w dir) -> exists T' g' z', named m T' g' z') -> t_Teff t = Some T -> rounded (T / 100) k ->
  (forall m T' g' z', In m (w_models w dir) -> named m T' g' z' -> IZR k < T') \/ (forall m T' g' z', In m (w_models w dir) -> named m T' g' z' -> T' < IZR k) ->
  load_source w n a b t (SourceDict d) = load_source w n a b t (SourceName "planck").
Proof.
  intros w n a b t d v dir T k Hv Hp Hd Hx Hne Hall HT Hk Hout. eapply fallback; eauto. intros T' M r HT' HM Hr. assert (T' = T) as -> by congruence.
  destruct (C52_a_model_is_found (w_models w dir) T (calc_logg M r) 0 k Hk Hall) as (_ & _ & H). auto.
Qed.
Print Assumptions C75_temperature_out_of_range.
(** One file whose name cannot be read, and every star is a black body, without an error. *)
Lemma three_parts_errors name : three_parts name -> (forall e, temperature_in name = Err e -> e = ValueError) /\ (forall e, gravity_in name = Err e -> e = ValueError) /\ (forall e, metallicity_in name = Err e -> e = ValueError).
Proof.
  intros H. destruct (parts name H) as (a & b & c & rest & _ & _ & _ & _ & _ & P0 & P1 & P2). unfold temperature_in, gravity_in, metallicity_in. rewrite P0, P1, P2. cbn [bind]. unfold number_in.
  split; [|split]; intros e; destruct (py_float _) as [[]|]; congruence.
Qed.
Lemma mapM_error {A B} (f : A -> res B) l e : mapM f l = Err e -> exists n, In n l /\ f n = Err e.
Proof.
  revert e. induction l as [|x l IH]; intros e E; [discriminate|]; cbn in E; destruct (f x) as [y|] eqn:Ef; cbn in E; [destruct (mapM f l) as [ys|] eqn:Em; cbn in E; [discriminate|]; destruct (IH e ltac:(congruence)) as (n & Hn & H'); exists n; split; [now right|auto]|exists x; split; [now left|congruence]].
Qed.
Theorem C75_one_unreadable_name : forall w n a b t d v dir m, d_value d = Some v -> py_lower v = "phoenix"%string -> models_dir w d dir -> w_exists w dir = true ->
  (forall m, In m (w_models w dir) -> three_parts m) -> In m (w_models w dir) -> (forall T' g' z', ~ named m T' g' z') ->
  load_source w n a b t (SourceDict d) = load_source w n a b t (SourceName "planck").
Proof.
  intros w n a b t d v dir m Hv Hp Hd Hx H3 Hm Hno. eapply fallback; eauto. intros T M r _ _ _. unfold choose_model. destruct (w_models w dir) as [|x l] eqn:El; [destruct Hm|]. rewrite <- El in *.
  destruct (mapM_readings (w_models w dir)) as [(Ts & Gs & Zs & vs & _ & _ & _ & Hr & _)|[_ Hf]]; [exfalso; destruct (readings_In _ _ _ Hr Hm) as (p & _ & Hn); exact (Hno _ _ _ Hn)|].
  destruct (mapM temperature_in _) as [Ts|e] eqn:E1; cbn [bind]. 2:{ apply mapM_error in E1. destruct E1 as (y & Hy & E1). apply (three_parts_errors y (H3 y Hy)) in E1. now subst. }
  destruct (mapM gravity_in _) as [Gs|e] eqn:E2; cbn [bind]. 2:{ apply mapM_error in E2. destruct E2 as (y & Hy & E2). apply (three_parts_errors y (H3 y Hy)) in E2. now subst. }
  destruct (mapM metallicity_in _) as [Zs|e] eqn:E3; cbn [bind]. 2:{ apply mapM_error in E3. destruct E3 as (y & Hy & E3). apply (three_parts_errors y (H3 y Hy)) in E3. now subst. }
  destruct (Hf _ _ _ eq_refl eq_refl eq_refl).
Qed.
Print Assumptions C75_one_unreadable_name.
(** Such a name is that of a metal rich model, lte055.0-4.5+0.3a+0.0.BT-Settl.spec.fits.gz; and the
    metallicity of a metal poor one is read with the wrong sign. *)
Theorem C75_metal_rich_names_are_unreadable : let m := "lte055.0-4.5+0.3a+0.0.BT-Settl.spec.fits.gz"%string in three_parts m /\ forall T g z, ~ named m T g z.
Proof.
  split; [exists "lte055.0"%string, "4.5+0.3a+0.0.BT"%string, "Settl.spec.fits.gz"%string; reflexivity|]. intros T g z H. apply named_iff in H. destruct H as (_ & H & _). vm_compute in H. discriminate.
Qed.
Print Assumptions C75_metal_rich_names_are_unreadable.
Theorem C75_metal_poor_names_misread_refuted : named "lte055.0-4.5-0.5a+0.2.BT-Settl.spec.fits.gz" 55 4.5 0.5.
Proof.
  exists "lte"%string, "055.0"%string, "4.5"%string, "0.5"%string, "a+0.2.BT-Settl.spec.fits.gz"%string. unfold no_dash. 
  repeat (split; [first [reflexivity | cbn; intuition discriminate | left; reflexivity]|]). unfold reads.
  split; [|split]; eexists; (split; [vm_compute; reflexivity|unfold Q2R; cbn; lra]).
Qed.
Print Assumptions C75_metal_poor_names_misread_refuted.

(** ** C74: the samples of a stellar model *)
Lemma removelast_cons {A} (x : A) l : l <> [] -> removelast (x :: l) = x :: removelast l.
Proof. destruct l; congruence || reflexivity. Qed.
Lemma keep_last_nonempty {V} (p : R * V) l : keep_last (p :: l) <> [].
Proof. revert p. induction l as [|q l IH]; intros p; cbn [keep_last]; [congruence|]. destruct (Req_EM_T _ _); [apply IH|congruence]. Qed.
Theorem C74_last_sample_dropped : forall w dir D T g r st, phoenix_star w dir D T g r = Ok st -> exists l,
  w_spectrum w dir (st_model st) = Ok l /\ s_wl (st_sed st) = removelast (wls (keep_last l))
  /\ s_data (st_sed st) = map (fun p => snd p * (r / D) ^ 2) (removelast (keep_last l)).
Proof.
  assert (H : forall l : list (R * R), followed l = removelast (keep_last l)).
  { induction l as [|p l IH]; auto. destruct l as [|q l]; auto. cbn [followed keep_last] in *. destruct (Req_EM_T (fst q - fst p) 0), (Req_EM_T (fst p) (fst q)); try lra; auto.
    rewrite removelast_cons by apply keep_last_nonempty. now rewrite IH. }
  assert (Hm : forall l : list (R * R), map fst (removelast l) = removelast (map fst l)). { induction l as [|p l IH]; auto. destruct l as [|q l]; auto. rewrite removelast_cons by congruence. cbn [map] in *. rewrite IH. reflexivity. }
  intros w dir D T g r st E. unfold phoenix_star in E. destruct (choose_model _ _ _ _) as [n|]; [|discriminate]. cbn [bind] in E. destruct (contains _ _); [|discriminate]. destruct (w_spectrum w dir n) as [l|] eqn:El; [|discriminate]. cbn [bind] in E.
  assert (st = tabulated (followed l) D r n) as -> by congruence. exists l. cbn [tabulated st_model st_sed s_wl s_data]. split; auto. rewrite H, Hm. split; auto. unfold scaled. now rewrite map_map.
Qed.
Print Assumptions C74_last_sample_dropped.

(** ** C76: the wavelengths *)
Lemma load_inv w n a b t s st : load_source w n a b t s = Ok st -> exists lo hi st0, wl_range a b = Ok (lo, hi) /\ um_of {| value := 1; in_um := in_um hi |} = 1
  /\ make_star w t (description_of s) (um_of lo) (um_of hi) = Ok st0 /\ resample (logspace (value lo) (value hi) n) (st_sed st0) = Ok (st_sed st) /\ st_luminosity st = st_luminosity st0 /\ st_model st = st_model st0.
Proof.
  intros E. unfold load_source in E. destruct (wl_range a b) as [[lo hi]|]; [|discriminate]. cbn [bind] in E. destruct (make_star w t _ _ _) as [st0|] eqn:Em; [|discriminate]. cbn [bind] in E.
  destruct (Req_EM_T _ _) as [Hu|]; [|discriminate]. destruct (resample _ _) as [sed|] eqn:Er; [|discriminate]. cbn [bind] in E. exists lo, hi, st0.
  assert (st = {| st_sed := sed; st_luminosity := st_luminosity st0; st_model := st_model st0 |}) as -> by congruence. auto 10.
Qed.
(** The spectrum of the target is given at [n] wavelengths, evenly spaced in their logarithms, from the
    lesser to the greater of the two given, in um. *)
Theorem C76_wavelengths_of_the_source : forall w n a b t s st, is_um a -> is_um b -> 0 < microns a -> 0 < microns b -> microns a <> microns b -> (2 <= n)%nat ->
  load_source w n a b t s = Ok st ->
  let wl := s_wl (st_sed st) in wavelength_grid wl /\ length wl = n /\ length (s_data (st_sed st)) = n
  /\ at_ 0 wl = Rmin (microns a) (microns b) /\ at_ (n - 1) wl = Rmax (microns a) (microns b)
  /\ forall i, (S (S i) < n)%nat -> at_ (S (S i)) wl * at_ i wl = at_ (S i) wl ^ 2.
Proof.
  intros w n a b t s st Ua Ub Ha Hb Hne Hn E wl. destruct (load_inv _ _ _ _ _ _ _ E) as (lo & hi & st0 & Ew & _ & _ & Er & _).
  assert (Hv : 0 < value lo < value hi /\ value lo = Rmin (microns a) (microns b) /\ value hi = Rmax (microns a) (microns b)).
  { unfold wl_range, um_of, microns in *. destruct a as [va oa], b as [vb ob]. cbn [in_um value] in *. unfold is_um in *. cbn [in_um] in *.
    destruct Ua as [-> | ->], Ub as [-> | ->]; cbn [in_um value] in *; try discriminate; (destruct (Rltb _ _) eqn:El; [apply Rltb_true in El|apply Rltb_false in El]); cbn [in_um value] in Ew;
    (assert (lo = fst (lo, hi)) as -> by reflexivity; assert (hi = snd (lo, hi)) as -> by reflexivity); injection Ew as <- <-; cbn [fst snd value]; unfold Rmin, Rmax; repeat destruct (Rle_dec _ _); lra. }
  destruct Hv as (Hv & H1 & H2). destruct (logspace_spec (value lo) (value hi) n Hv Hn) as (Hi & Hlen & F & L). destruct (resample_ok _ _ _ Hi Er) as (Hw & Hd & _). unfold wl. rewrite Hw. fold (at_ 0 (logspace (value lo) (value hi) n)) in F. fold (at_ (n - 1) (logspace (value lo) (value hi) n)) in L.
  assert (Hpos : forall i, (i < n)%nat -> at_ i (logspace (value lo) (value hi) n) = value lo * Rpower (value hi / value lo) (INR i / INR (n - 1))) by (intros i Hin; unfold logspace; now rewrite at_map_seq).
  split; [split; [auto|]; split; [lia|]; intros x Hx; apply (In_nth _ _ 0) in Hx; destruct Hx as (i & Hi' & <-); fold (at_ i (logspace (value lo) (value hi) n)); rewrite Hpos by lia; apply Rmult_lt_0_compat; [lra|apply exp_pos]|].
  split; auto. split; [lia|]. split; [congruence|]. split; [congruence|]. intros i Hin. rewrite !Hpos by lia.
  replace (value lo * Rpower (value hi / value lo) (INR (S (S i)) / INR (n - 1)) * (value lo * Rpower (value hi / value lo) (INR i / INR (n - 1)))) with (value lo ^ 2 * (Rpower (value hi / value lo) (INR (S (S i)) / INR (n - 1)) * Rpower (value hi / value lo) (INR i / INR (n - 1)))) by ring.
  rewrite <- Rpower_plus, Rpow_mult_distr. f_equal. rewrite <- Rpower_pow by apply exp_pos. rewrite Rpower_mult. f_equal. rewrite !S_INR. cbn. field. apply not_0_INR. lia.
Qed.
Print Assumptions C76_wavelengths_of_the_source.
(** Their order does not matter, and bare numbers are in um. *)
Theorem C76_order : forall w n a b t s, microns a <> microns b -> load_source w n a b t s = load_source w n b a t s.
Proof.
  intros w n a b t s Hne. unfold load_source. assert (wl_range a b = wl_range b a) as ->; auto. unfold wl_range, um_of, microns in *. destruct a as [va [sa|]], b as [vb [sb|]]; cbn [in_um value] in *; auto.
  all: destruct (Rltb _ _) eqn:E1, (Rltb _ _) eqn:E2 in |- *; rewrite ?E1, ?E2; auto.
  all: repeat match goal with H : Rltb _ _ = true |- _ => apply Rltb_true in H | H : Rltb _ _ = false |- _ => apply Rltb_false in H end; exfalso; lra.
Qed.
Print Assumptions C76_order.
Theorem C76_bare_numbers_are_um : forall w n x y t s, load_source w n {| value := x; in_um := None |} {| value := y; in_um := None |} t s = load_source w n {| value := x; in_um := Some 1 |} {| value := y; in_um := Some 1 |} t s.
Proof.
  intros. unfold load_source, wl_range, um_of. cbn [in_um value]. destruct (Rltb _ _); reflexivity.
Qed.
Print Assumptions C76_bare_numbers_are_um.
Theorem C76_mixed_fails : forall w n a b t s, ~ comparable a b -> load_source w n a b t s = Err UnitConversionError.
Proof.
  intros w n a b t s H. unfold load_source, wl_range, comparable in *. destruct (in_um a), (in_um b); auto; exfalso; apply H; split; congruence.
Qed.
Print Assumptions C76_mixed_fails.
(** Units other than um: for the greater wavelength they fail, for the lesser one the number is taken
    as if it were in um. *)
Theorem C76_other_units_refuted : forall w n a b t s u u', in_um a = Some u -> in_um b = Some u' -> microns a < microns b -> (1 <= n)%nat -> 0 < value a ->
  (u' <> 1 -> exists e, load_source w n a b t s = Err e)
  /\ forall st, load_source w n a b t s = Ok st -> at_ 0 (s_wl (st_sed st)) = value a.
Proof.
  intros w n a b t s u u' Ha Hb Hlt Hn Hv. assert (Ew : wl_range a b = Ok (a, b)).
  { unfold wl_range, um_of, microns in *. rewrite Ha, Hb in *. assert (Rltb (value b * u') (value a * u) = false) as -> by (apply Rltb_false; lra). now rewrite Ha. }
  split.
  - intros Hu. destruct (load_source w n a b t s) as [st|e] eqn:E; [|eauto]. exfalso. destruct (load_inv _ _ _ _ _ _ _ E) as (lo & hi & st0 & Ew' & H1 & _). assert (hi = b) as -> by congruence. unfold um_of in H1. cbn [value in_um] in H1. rewrite Hb in H1. lra.
  - intros st E. destruct (load_inv _ _ _ _ _ _ _ E) as (lo & hi & st0 & Ew' & _ & _ & Er & _). assert (lo = a) as -> by congruence. assert (hi = b) as -> by congruence. unfold resample in Er. destruct (Nat.eqb _ _); [|discriminate]. destruct (spectral_rebin _ _ _ _) as [[g y]|]; [|discriminate]. cbn [bind] in Er.
    assert (s_wl (st_sed st) = logspace (value a) (value b) n) as -> by (replace (st_sed st) with {| s_wl := logspace (value a) (value b) n; s_data := y |} by congruence; reflexivity).
    unfold logspace. rewrite at_map_seq by lia. cbn [INR]. unfold Rdiv at 2. rewrite Rmult_0_l. unfold Rpower. rewrite Rmult_0_l, exp_0. lra.
Qed.
Print Assumptions C76_other_units_refuted.

(** The header of the target's table: the results are recorded, other entries are kept. *)
Definition star_keys : list string := ["starName"; "starM"; "starTeff"; "starR"; "starDistance"; "starL"; "starModel"; "starMagK"]%string.
Theorem C51_header : forall name magk t st h h', add_star_metadata (Some name) magk t st h = Ok h' ->
  sget "starName" h' = Some (MText name) /\ sget "starL" h' = Some (MNumber (st_luminosity st)) /\ sget "starModel" h' = Some (MText (st_model st))
  /\ sget "starMagK" h' = match magk with Some x => Some (MNumber x) | None => sget "starMagK" h end
  /\ forall k, ~ In k star_keys -> sget k h' = sget k h.
Proof.
  intros name magk t st h h' E. unfold add_star_metadata in E. assert (forall a b : sdict meta, Ok a = Ok b -> a = b) as inj by (intros; congruence). apply inj in E. subst h'. clear inj.
  unfold dupdate. destruct magk as [x|]; cbn [app fold_left fst snd].
  all: repeat split; rewrite ?(dget_dset _ String_eqb_spec); cbn [String.eqb Ascii.eqb Bool.eqb]; auto.
  all: intros k Hk; repeat (rewrite (dget_dset_other _ String_eqb_spec) by (intros ->; apply Hk; cbn; auto 10)); reflexivity.
Qed.
Print Assumptions C51_header.

(** ** Cases meeting the hypotheses *)
Definition ex_names : list string := ["lte030.0-4.5-0.0a+0.0.BT-Settl.spec.fits.gz"; "lte060.0-4.5-0.0a+0.0.BT-Settl.spec.fits.gz"]%string.
Definition ex_world : world :=
  {| w_exists := fun _ => true; w_models := fun d => if String.eqb d "models" then ex_names else "lte055.0-4.5+0.3a+0.0.BT-Settl.spec.fits.gz"%string :: ex_names;
     w_spectrum := fun _ _ => Ok [(1, 2); (2, 4); (3, 5)]; w_table := fun _ => Ok [(1, 2); (2, 4)]; w_phoenix := Some "models"%string |}.
Definition ex_star : stellar := {| t_D := Some 10; t_Teff := Some 3200; t_M := Some (2 * 10 ^ 30); t_R := Some 1 |}.
Definition bare (x : R) : wavelength := {| value := x; in_um := None |}.
Lemma ex_named : named "lte030.0-4.5-0.0a+0.0.BT-Settl.spec.fits.gz" 30 4.5 0 /\ named "lte060.0-4.5-0.0a+0.0.BT-Settl.spec.fits.gz" 60 4.5 0.
Proof.
  split; [exists "lte"%string, "030.0"%string, "4.5"%string, "0.0"%string, "a+0.0.BT-Settl.spec.fits.gz"%string|exists "lte"%string, "060.0"%string, "4.5"%string, "0.0"%string, "a+0.0.BT-Settl.spec.fits.gz"%string]; unfold no_dash;
  repeat (split; [first [reflexivity | cbn; intuition discriminate | left; reflexivity]|]); (split; [|split]; eexists; (split; [vm_compute; reflexivity|unfold Q2R; cbn; lra])).
Qed.
Lemma ex_logspace : logspace 1 2 2 = [1; 2].
Proof. unfold logspace. cbn [seq map Nat.sub INR]. unfold Rdiv. rewrite Rinv_1, !Rmult_1_r. unfold Rpower. rewrite Rmult_0_l, exp_0, !Rmult_1_l. rewrite exp_ln by lra. repeat f_equal; lra. Qed.
Lemma ex_grid2 x y : wavelength_grid [1; 2] /\ one_value_per_wavelength {| s_wl := [1; 2]; s_data := [x; y] |}.
Proof. split; [|reflexivity]. split; [repeat constructor; lra|]. split; [cbn; lia|]. intros v Hv. cbn in Hv. intuition subst; lra. Qed.
(** C50, C76: a custom spectrum at the distance of 10 radii *)
Example C50_ex : load_source ex_world 2 (bare 2) (bare 1) ex_star (SourceDict {| d_value := Some "Custom"%string; d_custom := Some "f"%string; d_models := None |})
  = Ok {| st_sed := {| s_wl := [1; 2]; s_data := [2 * (1 / 10) ^ 2; 4 * (1 / 10) ^ 2] |}; st_luminosity := 4 * PI * 1 ^ 2 * trapz [1; 2] [2; 4] / solar_luminosity; st_model := "Custom" |}.
Proof.
  unfold load_source, wl_range, bare, um_of. cbn [in_um value]. rewrite (proj2 (Rltb_true (1 * 1) (2 * 1))) by lra. cbn [in_um value bind]. unfold make_star. cbn [description_of d_value lookup bind].
  change (String.eqb (py_lower "Custom") "custom") with true. cbn [ex_star t_D t_R given bind d_custom lookup]. unfold custom_star. cbn [ex_world w_table bind]. destruct (Req_EM_T (1 * 1) 1) as [_|]; [|lra].
  rewrite ex_logspace. unfold tabulated. cbn [st_sed map fst snd scaled st_luminosity st_model]. 
  pose proof (resample_self {| s_wl := [1; 2]; s_data := [2 * (1 / 10) ^ 2; 4 * (1 / 10) ^ 2] |} (proj1 (ex_grid2 0 0)) (proj2 (ex_grid2 _ _))) as H. cbn [s_wl] in H. rewrite H. reflexivity.
Qed.
(** C52: 3200 K, gravity 4.4 between two models *)
Example C52_ex : exists n, choose_model ex_names 3200 4.4 0 = Ok n.
Proof.
  destruct ex_named as [A B]. apply (C52_a_model_is_found ex_names 3200 4.4 0 32).
  - split; [|intros _; exists 16%Z; reflexivity]. rewrite Rabs_pos_eq; lra.
  - intros m [<-|[<-|[]]]; eauto.
  - exists (nth 0 ex_names ""%string), 30, 4.5, 0. split; [now left|]. split; auto. lra.
  - exists (nth 1 ex_names ""%string), 60, 4.5, 0. split; [right; now left|]. split; auto. lra.
Qed.
(** C75: the directory with one metal rich model *)
Example C75_ex : load_source ex_world 2 (bare 1) (bare 2) ex_star (SourceDict {| d_value := Some "Phoenix"%string; d_custom := None; d_models := Some "more"%string |}) = load_source ex_world 2 (bare 1) (bare 2) ex_star (SourceName "planck").
Proof.
  destruct C75_metal_rich_names_are_unreadable as [H3 Hno]. eapply (C75_one_unreadable_name ex_world 2 _ _ _ _ "Phoenix" "more"); [reflexivity|reflexivity|left; reflexivity|reflexivity| |left; reflexivity|exact Hno].
  intros m [<-|[<-|[<-|[]]]]; auto.
  - exists "lte030.0"%string, "4.5"%string, "0.0a+0.0.BT-Settl.spec.fits.gz"%string. reflexivity.
  - exists "lte060.0"%string, "4.5"%string, "0.0a+0.0.BT-Settl.spec.fits.gz"%string. reflexivity.
Qed.
(** C75: a star of 8000 K *)
Example C75_ex_hot : load_source ex_world 2 (bare 1) (bare 2) {| t_D := Some 10; t_Teff := Some 8000; t_M := Some 1; t_R := Some 1 |} (SourceDict {| d_value := Some "phoenix"%string; d_custom := None; d_models := None |})
  = load_source ex_world 2 (bare 1) (bare 2) {| t_D := Some 10; t_Teff := Some 8000; t_M := Some 1; t_R := Some 1 |} (SourceName "planck").
Proof.
  destruct ex_named as [A B]. eapply (C75_temperature_out_of_range ex_world 2 _ _ _ _ "phoenix" "models" 8000 80); try reflexivity.
  - right. split; reflexivity.
  - discriminate.
  - intros m [<-|[<-|[]]]; eauto.
  - split; [|intros _; exists 40%Z; reflexivity]. rewrite Rabs_pos_eq; lra.
  - right. intros m T' g' z' [<-|[<-|[]]] Hn; [destruct (named_unique _ _ _ _ _ _ _ Hn A) as [-> _]|destruct (named_unique _ _ _ _ _ _ _ Hn B) as [-> _]]; lra.
Qed.
(** C74: of three samples two are used *)
Example C74_ex : exists st, phoenix_star ex_world "models" 10 3200 4.4 1 = Ok st /\ s_wl (st_sed st) = [1; 2].
Proof.
  destruct C52_ex as [n E]. unfold phoenix_star. change (w_models ex_world "models") with ex_names. rewrite E. cbn [bind].
  apply choose_In in E. assert (contains "spec.fits.gz" ("models" ++ "/" ++ n) = true) as -> by (destruct E as [<-|[<-|[]]]; reflexivity). eexists. split; [reflexivity|].
  cbn [tabulated st_sed s_wl followed fst]. repeat (destruct (Req_EM_T _ _); [lra|]). reflexivity.
Qed.
