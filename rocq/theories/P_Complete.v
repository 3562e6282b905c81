(** Properties: complete descriptions can be observed (C89). *)
From Verif Require Import Base Dict PyStr XR M_Signal M_Optics M_Light M_Bins M_Star M_Psf M_Source M_Foreground S_Signal S_Optics S_Light S_Bins S_Star S_Source S_Planck S_Foreground S_Success L_Signal P_Signal L_Optics L_Light L_Star L_Source L_Foreground P_Star P_Light P_Windows P_Planck P_Source P_Foreground P_Success.
From Verif Require M_Noise P_Noise.
From Verif Require Import S_Noise L_Noise.
From Verif Require Import M_Table S_Table L_Table P_Table M_Observe S_Observe L_Observe L_Stages L_Outcome P_Observe P_Outcome S_Works P_Works S_Complete.
Import M_Noise(fixed_frame_time).
From Coq Require Import Lia Lra.
Open Scope list_scope.
Open Scope R_scope.

(** ** Foregrounds *)
Definition clear (wl : list R) (t : tgt) : Prop :=
  located t /\ (forall s, g_sky t = Some s -> length (s_data s) = length wl /\ forall x, In x (s_data s) -> 0 <= x <= 1) /\
  forall fs, g_foreground t = Some fs -> forall k f, In (k, f) fs -> nonneg (s_data (f_light f)).
Lemma filter_ok wl d : sensible_filter d -> exists name f tr, k_value d = Some name /\ sky_filter wl d = Ok f /\ f_transmission f = Some tr /\ length tr = length wl /\ (forall x, In x tr -> 0 <= x <= 1) /\ nonneg (s_data (f_light f)).
Proof.
  intros ([name N] & t & w & uw & r & ur & tr & K & W & UW & RA & UR & TR & NE & L1 & L2 & ND & PU & BR & BT).
  assert (C : complete d) by (exists name, t, w, uw, r, ur, tr; repeat split; auto).
  destruct (complete_filter wl d C) as [f F]. exists name, f.
  assert (DW : distinct_wavelengths d) by (intros t' w' u' A B D; assert (t' = t) as -> by congruence; assert (w' = w) as -> by congruence; assert (u' = uw) as -> by congruence; exact ND).
  destruct (filter_values _ _ _ F DW) as (trs & E & H1 & H2). exists trs. split; auto. split; auto. split; auto. split; [symmetry; now apply Forall2_len in H1|].
  split.
  - intros x I. destruct (In_nth _ _ 0 I) as (i & Hi & <-). pose proof (Forall2_len _ _ _ H1) as LL. pose proof (F2_nth _ _ _ H1 i 0 ltac:(lia)) as X.
    exact (proj1 (C78_bounds d _ _ t tr K) X TR BT).
  - intros x I. destruct (In_nth _ _ 0 I) as (i & Hi & <-). pose proof (Forall2_len _ _ _ H2) as LL. pose proof (F2_nth _ _ _ H2 i 0 ltac:(lia)) as X.
    apply (proj2 (C78_bounds d _ _ t r K) X RA BR). intros u U. congruence.
Qed.
Lemma set_In {A} k (f : A) fs k' l : In (k', l) (sset k f fs) -> l = f \/ In (k', l) fs.
Proof. induction fs as [|[k2 l2] fs IH]; cbn; [intros [[= <- <-]|[]]; auto|]. destruct (String.eqb k k2); cbn; intros [I|I]; try (injection I as <- <-; auto; fail); auto. destruct (IH I); auto. Qed.
Lemma set_nonempty {A} k (f : A) fs : sset k f fs <> [].
Proof. destruct fs as [|[k2 l2] fs]; cbn [dset]; [discriminate|]. destruct (String.eqb k k2); discriminate. Qed.
Lemma entry_clear k f t fs : nonneg (s_data (f_light f)) -> (forall fs, g_foreground t = Some fs -> forall k f, In (k, f) fs -> nonneg (s_data (f_light f))) -> entry k f t = Some fs -> forall k f, In (k, f) fs -> nonneg (s_data (f_light f)).
Proof.
  intros H HT E k' l I. unfold entry in E. injection E as <-. apply set_In in I as [-> |I]; auto. destruct (g_foreground t) as [fs|]; [eauto|destruct I].
Qed.
Lemma one_clear m n a b wl k d t : working_grid n a b = Ok wl -> (forall w, In w wl -> 0 < w) -> (if String.eqb k "zodiacal" then sensible_zodi (as_zodi d) else sensible_filter (as_sky d)) -> clear wl t ->
  exists t', estimate_one m n a b k d t = Ok t' /\ clear wl t' /\ exists fs, g_foreground t' = Some fs /\ fs <> [].
Proof.
  intros W P S (C0 & C1 & C2). unfold estimate_one. destruct (String.eqb k "zodiacal").
  - destruct S as [S1 S2]. unfold estimate_zodi. rewrite W. cbn [bind].
    assert (exists co, match g_ra t with Some ra => match g_dec t with Some dec => Ok (Some (ra, dec)) | None => Err KeyError end | None => Ok None end = Ok co) as [co ->].
    { unfold located in C0. destruct (g_ra t); [|eauto]. destruct (g_dec t); [eauto|]. exfalso. apply C0; congruence. }
    cbn [bind]. set (A := match z_factor (as_zodi d) with Some v => v | None => 0 end).
    assert (zodi_factor m (as_zodi d) co = Ok A) as ->. { unfold zodi_factor, A. destruct (z_map (as_zodi d)) as [[|]|]; [congruence| |]; destruct (z_factor (as_zodi d)); reflexivity. }
    assert (HA : 0 <= A) by (unfold A; destruct (z_factor (as_zodi d)) eqn:Z; [auto|lra]).
    cbn [bind]. eexists. split; [reflexivity|]. split.
    + split; [exact C0|]. split; [exact C1|]. cbn [g_foreground]. intros fs E. eapply entry_clear; eauto. cbn. intros x I. apply in_map_iff in I as (w & <- & I).
      destruct (C53_positive_and_increasing w 5500 (P _ I)) as [H1 _]; [lra|]. destruct (C53_positive_and_increasing w 270 (P _ I)) as [H2 _]; [lra|].
      apply Rmult_le_pos; auto. apply Rplus_le_le_0_compat; apply Rmult_le_pos; try lra; apply Rmult_le_pos; try lra; left; apply Rinv_0_lt_compat, pow_lt; lra.
    + cbn [g_foreground]. unfold entry. eexists. split; [reflexivity|]. apply set_nonempty.
  - destruct (filter_ok wl _ S) as (name & f & tr & N & F & T & L & B & NN). unfold estimate_foreground. rewrite W. cbn [bind]. rewrite N. cbn [lookup bind]. rewrite F. cbn [bind]. rewrite T. cbn [lookup bind].
    assert (exists sk, match g_sky t with None => Ok {| s_wl := wl; s_data := tr |} | Some s => let* x := times (s_data s) tr in Ok {| s_wl := s_wl s; s_data := x |} end = Ok sk /\ length (s_data sk) = length wl /\ forall x, In x (s_data sk) -> 0 <= x <= 1) as (sk & E & L' & B').
    { destruct (g_sky t) as [s|]; [|eexists; split; [reflexivity|]; cbn; auto]. destruct (C1 s eq_refl) as [L1 B1]. assert (LE : length (s_data s) = length tr) by congruence. rewrite (times_same _ _ LE). cbn [bind]. eexists. split; [reflexivity|]. cbn [s_data].
      destruct (times_ok _ _ _ (times_same _ _ LE)) as (_ & LM & AM). split; [congruence|].
      intros x I. destruct (In_nth _ _ 0 I) as (i & Hi & <-). change (nth i (mul (s_data s) tr) 0) with (at_ i (mul (s_data s) tr)). rewrite AM.
      assert (0 <= at_ i (s_data s) <= 1) by (apply B1, at_In; lia). assert (0 <= at_ i tr <= 1) by (apply B, at_In; lia). nra. }
    rewrite E. cbn [bind]. eexists. split; [reflexivity|]. split.
    + split; [exact C0|]. split; cbn [g_sky g_foreground].
      * intros s [= <-]. auto.
      * intros fs X. eapply entry_clear; eauto.
    + cbn [g_foreground]. unfold entry. eexists. split; [reflexivity|]. apply set_nonempty.
Qed.
Lemma foregrounds_clear m n a b wl f t : working_grid n a b = Ok wl -> (forall w, In w wl -> 0 < w) -> sensible_foregrounds f -> clear wl t ->
  exists t', estimate_foregrounds m n a b f t = Ok t' /\ clear wl t' /\ exists fs, g_foreground t' = Some fs /\ fs <> [].
Proof.
  intros W P S C. destruct f as [l|d]; cbn [estimate_foregrounds].
  - destruct S as [NE S]. revert t C. induction l as [|[k d] l IH]; [congruence|]. intros t C. cbn [estimate_all].
    destruct (one_clear m n a b wl k d t W P (S k d (or_introl eq_refl)) C) as (t1 & E & C' & X). rewrite E. cbn [bind].
    destruct l as [|q l]; [exists t1; cbn; auto|]. apply IH; auto; [discriminate|]. intros k' d' I. apply S. now right.
  - destruct S as (v & E & S). rewrite E. cbn [lookup bind]. now apply (one_clear m n a b wl v d t).
Qed.

(** ** A black body *)
Lemma linspace_spec lo hi n : lo < hi -> (2 <= n)%nat -> increasing (linspace lo hi n) /\ In lo (linspace lo hi n) /\ In hi (linspace lo hi n).
Proof.
  intros H N. assert (P : 0 < INR (n - 1)) by (apply lt_0_INR; lia). set (d := (hi - lo) / INR (n - 1)). assert (D : 0 < d) by (apply Rdiv_lt_0_compat; lra).
  unfold linspace. fold d. split; [|split].
  - generalize 0%nat. clear N P. clearbody d. induction n as [|n IH]; intros k; cbn [seq map]; [constructor|]. constructor; [apply IH|]. rewrite Forall_forall. intros y Y. apply in_map_iff in Y as (j & <- & J). apply in_seq in J.
    assert (INR k < INR j) by (apply lt_INR; lia). nra.
  - apply in_map_iff. exists 0%nat. split; [rewrite Rmult_0_l; ring|]. apply in_seq. lia.
  - apply in_map_iff. exists (n - 1)%nat. split; [unfold d; field; lra|]. apply in_seq. lia.
Qed.
Lemma black_body_loads s x src : in_um (y_min s) = Some 1 -> in_um (y_max s) = Some 1 -> 0 < value (y_min s) < value (y_max s) -> (2 <= y_R s)%nat ->
  y_source s = Some src -> black_body src -> known_star (x_stellar x) -> x_star_name x <> None -> exists st, load s x = Ok st /\ nonneg (s_data (st_sed st)) /\ s_wl (st_sed st) = logspace (value (y_min s)) (value (y_max s)) (y_R s).
Proof.
  intros U1 U2 V N Y (v & DV & NC & NP) (D & T & M & r & HD & HT & HM & HR & PD & PT & PM & PR) NM. unfold load. rewrite Y. cbn [lookup bind].
  assert (exists st, load_source (y_world s) (y_R s) (y_min s) (y_max s) (x_stellar x) src = Ok st /\ nonneg (s_data (st_sed st)) /\ s_wl (st_sed st) = logspace (value (y_min s)) (value (y_max s)) (y_R s)) as (st & E & NS & EW).
  { unfold load_source. unfold wl_range. rewrite U1, U2. assert (um_of (y_min s) = value (y_min s)) as EM by (unfold um_of; rewrite U1; ring). assert (um_of (y_max s) = value (y_max s)) as EX by (unfold um_of; rewrite U2; ring).
    rewrite (proj2 (Rltb_false (um_of (y_max s)) (um_of (y_min s)))) by lra. rewrite ?U1. cbn [bind]. unfold make_star. rewrite DV. cbn [lookup bind].
    apply String.eqb_neq in NC, NP. rewrite NC, HD, HT, HM, HR. cbn [given bind]. rewrite NP. rewrite EM, EX.
    set (pl := planck_star (value (y_min s)) (value (y_max s)) D T r).
    assert (forall b : bool, (if b then Ok pl else Ok pl) = Ok pl) as -> by (intros []; reflexivity). cbn [bind].
    unfold um_of. cbn [value in_um]. rewrite U2. destruct (Req_EM_T (1 * 1) 1); [|lra].
    destruct (linspace_spec (value (y_min s)) (value (y_max s)) 10000 (proj2 V) ltac:(apply Nat.leb_le; reflexivity)) as (I1 & I2 & I3).
    destruct (logspace_spec _ _ _ V N) as (G1 & G2 & G3 & G4).
    assert (WG : wavelength_grid (logspace (value (y_min s)) (value (y_max s)) (y_R s))).
    { split; auto. split; [lia|]. intros w I. unfold logspace in I. apply in_map_iff in I as (k & <- & _). apply Rmult_lt_0_compat; [lra|]. unfold Rpower. apply exp_pos. }
    assert (CV : curve (st_sed pl)). { split; [now apply increasing_nondecreasing|]. unfold one_value_per_wavelength, pl, planck_star. cbn [st_sed s_data s_wl]. now rewrite map_length. }
    destruct (proj2 (proj1 (C88_curve_on_a_grid _ _ WG CV))) as [sed E].
    { assert (forall i, (i < y_R s)%nat -> In (nth i (logspace (value (y_min s)) (value (y_max s)) (y_R s)) 0) (logspace (value (y_min s)) (value (y_max s)) (y_R s))) as IN by (intros; apply nth_In; lia).
      assert (BD : forall w, In w (logspace (value (y_min s)) (value (y_max s)) (y_R s)) -> value (y_min s) <= w <= value (y_max s)).
      { intros w I. destruct (In_nth _ _ 0 I) as (i & Hi & <-). rewrite G2 in Hi. assert (INC : forall i j, (i < j)%nat -> (j < y_R s)%nat -> nth i (logspace (value (y_min s)) (value (y_max s)) (y_R s)) 0 < nth j (logspace (value (y_min s)) (value (y_max s)) (y_R s)) 0) by (intros; apply increasing_nth; auto; lia). split.
        - destruct i as [|i]; [lra|]. specialize (INC 0%nat (S i)). rewrite G3 in INC. left. apply INC; lia.
        - destruct (Nat.eq_dec i (y_R s - 1)) as [-> |]; [lra|]. specialize (INC i (y_R s - 1)%nat). rewrite G4 in INC. left. apply INC; lia. }
      exists (value (y_min s)), (value (y_max s)), (value (y_min s)), (value (y_max s)). split.
      - split; [|intros w I; apply BD in I; lra]. rewrite <- G3 at 1. apply IN. lia.
      - split; [split; [|intros w I; apply BD in I; lra]; rewrite <- G4 at 1; apply IN; lia|]. split; [exact I2|]. split; [exact I3|]. lra. }
    rewrite E. cbn [bind]. eexists. split; [reflexivity|]. cbn [st_sed]. destruct (resample_ok _ _ _ G1 E) as (WL & _). split; [|auto].
    eapply resample_nonneg; [exact E|]. unfold pl. apply planck_nonneg; lra. }
  rewrite E. cbn [bind]. unfold add_star_metadata. destruct (x_star_name x) as [nm|]; [|congruence]. cbn [bind]. eauto.
Qed.

(** ** Complete descriptions can be observed: the wavelengths are those of the range, at equal ratios. *)
Theorem C89_complete_descriptions_observe : forall ns chs h s x f src, instruments ns chs -> quiet ns -> ~ In "MaxSignal_inPixel"%string ns -> In "Wavelength"%string ns -> In "WindowSize"%string ns ->
  Forall (fun sx => columns_apart ns chs (fst sx) (snd sx)) h -> columns_apart ns chs s x ->
  in_um (y_min s) = Some 1 -> in_um (y_max s) = Some 1 -> 0 < value (y_min s) < value (y_max s) -> (2 <= y_R s)%nat ->
  y_foreground s = Some f -> sensible_foregrounds f -> g_sky (x_sky x) = None -> g_foreground (x_sky x) = None -> located (x_sky x) ->
  y_source s = Some src -> black_body src -> known_star (x_stellar x) -> x_star_name x <> None ->
  (forall name c wl, In (name, c) chs -> geometric_grid (value (y_min s)) (value (y_max s)) (y_R s) wl ->
     works_at wl c /\ exists r, fixed_frame_time (h_noise c) = Some (Fin r) /\ 0 < r) ->
  exists y, snd (observe_target s (after chs h) x) = Ok y.
Proof.
  intros ns chs h s x f src HI Q NM WL WS H AP U1 U2 V N YF SF GS GF LC YS BB KS SN CH.
  assert (WGr : working_grid (y_R s) (y_min s) (y_max s) = Ok (logspace (value (y_min s)) (value (y_max s)) (y_R s))) by (unfold working_grid, um_of; rewrite U1, U2, !Rmult_1_r; reflexivity).
  destruct (black_body_loads s x src U1 U2 V N YS BB KS SN) as (st & LD & NS & EW).
  destruct (foregrounds_clear (y_maps s) (y_R s) (y_min s) (y_max s) _ f (x_sky x) WGr) as (g & EG & (_ & C1 & C2) & fs & G & NE); auto.
  { intros w I. unfold logspace in I. apply in_map_iff in I as (k & <- & _). apply Rmult_lt_0_compat; [lra|]. unfold Rpower. apply exp_pos. }
  { split; auto. rewrite GS, GF. split; discriminate. }
  assert (FG : foregrounds_of s (x_sky x) = Ok g) by (unfold foregrounds_of; rewrite YF; exact EG).
  apply (C89_working_channels_observe ns chs h s x g fs st); auto.
  - congruence.
  - unfold physical_sky. destruct (g_sky g) as [sk|]; auto. now destruct (C1 sk eq_refl).
  - intros k l I. eapply C2; eauto.
  - intros name c I. destruct (CH name c (s_wl (st_sed st)) I) as (W & r & F & P).
    + rewrite EW. pose proof (grid_spec _ _ _ _ WGr) as GG. unfold microns in GG. rewrite U1, U2, !Rmult_1_r in GG. exact GG.
    + split; auto. rewrite F. eauto.
Qed.
Print Assumptions C89_complete_descriptions_observe.
